(** Proofs about the fix-up of unity files. *)
From Coq Require Import String List Arith Bool Ascii Lia.
From Verif Require Import M_Path M_Args M_Drv S_Drv M_Fix S_Fix T_Path P_Drv P_Drv3.
Import ListNotations.
Open Scope list_scope.

Lemma app_split {A} (a b c d : list A) : a ++ b = c ++ d -> List.length a <= List.length c -> exists e, c = a ++ e /\ b = e ++ d.
Proof.
  revert c. induction a as [|x a IH]; intros c E LE; [exists c; auto|]. destruct c as [|y c]; [cbn in LE; lia|]. injection E as <- E. cbn in LE.
  destruct (IH c E ltac:(lia)) as (e&->&->). exists e. auto.
Qed.
Lemma find_at o x y : o <> [] -> clear_of o x -> find o (x ++ o ++ y) = Some (x, y).
Proof.
  intros NO C. pose proof (find_spec o NO (x ++ o ++ y)) as S. destruct (find o (x ++ o ++ y)) as [[a b]|].
  - destruct S as [E M]. assert (LE : List.length a <= List.length x) by (eapply M; reflexivity).
    assert (E' : a ++ o ++ b = x ++ o ++ y) by auto. rewrite app_assoc in E'. rewrite (app_assoc x o y) in E'.
    destruct (app_split (a ++ o) b (x ++ o) y E') as (e&E1&E2); [rewrite !app_length; lia|].
    rewrite <- app_assoc in E1. pose proof (C a e E1) as ->. rewrite app_nil_r in E1. apply app_inv_tail in E1. subst. reflexivity.
  - destruct S. now exists x, y.
Qed.
Lemma find_none o x : o <> [] -> ~ has o x -> find o x = None.
Proof. intros NO N. pose proof (find_spec o NO x) as S. destruct (find o x) as [[a b]|]; [|reflexivity]. destruct N. exists a, b. apply S. Qed.
Lemma clear_none o x : o <> [] -> clear_of o x -> ~ has o x.
Proof. intros NO C (a&b&E). assert (H : x ++ o = a ++ o ++ (b ++ o)) by (rewrite E, <- !app_assoc; reflexivity). apply C in H. destruct b; [cbn in H; contradiction|discriminate]. Qed.

(** *** Whatever the text is, only blanks are written *)
Lemma blanked_refl s : Forall2 blanked s s.
Proof. induction s; constructor; [now left|auto]. Qed.
Lemma removelast_pop n : pop_text n = removelast (pop_text n) ++ ["2"%char].
Proof.
  unfold pop_text. assert (E : [space; quote] ++ n ++ [quote; space; "2"%char] = ([space; quote] ++ n ++ [quote; space]) ++ ["2"%char]) by (rewrite <- !app_assoc; reflexivity).
  rewrite E, removelast_last. reflexivity.
Qed.
Lemma loop_blanks n : forall fuel s, Forall2 blanked s (fix_loop fuel (pop_text n) s).
Proof.
  induction fuel as [|f IH]; intros s; cbn [fix_loop]; [apply blanked_refl|].
  pose proof (find_spec push_mark ltac:(discriminate) s) as S. destruct (find push_mark s) as [[a b]|]; [|apply blanked_refl]. destruct S as [-> _].
  apply Forall2_app; [apply blanked_refl|]. apply Forall2_app; [apply blanked_refl|].
  destruct (Ascii.eqb (hd nul b) "<"); [apply IH|]. pose proof (find_spec [quote] ltac:(discriminate) b) as S. destruct (find [quote] b) as [[m r]|]; [|apply blanked_refl]. destruct S as [-> _].
  apply Forall2_app; [apply blanked_refl|]. destruct (starts_with [quote; space; "1"%char] (quote :: r)) eqn:SW; [|apply IH].
  apply starts_with_iff in SW. destruct SW as (x&SW). injection SW as ->. cbn [skipn].
  change ([quote] ++ space :: "1"%char :: x) with ([quote; space; "1"%char] ++ x). apply Forall2_app; [constructor; [now left|constructor; [now left|constructor; [right; auto|constructor]]]|].
  pose proof (find_spec (pop_text n) ltac:(discriminate) x) as S. destruct (find (pop_text n) x) as [[y z]|]; [|apply blanked_refl]. destruct S as [-> _].
  apply Forall2_app; [apply blanked_refl|]. rewrite (removelast_pop n) at 1. rewrite <- app_assoc. apply Forall2_app; [apply blanked_refl|].
  assert (B : Forall2 blanked ("2"%char :: z) (space :: z)) by (constructor; [right; auto|apply blanked_refl]).
  specialize (IH (space :: z)). change (["2"%char] ++ z) with ("2"%char :: z). inversion IH as [|? e ? l H1 H2 E1 E2]; subst. constructor; [|exact H2].
  destruct H1 as [->|[-> [D|D]]]; [right; auto|discriminate|discriminate].
Qed.

(** *** A well-formed page *)
Lemma clear_cons c x : c <> newline -> clear_of begins x -> clear_of begins (c :: x).
Proof.
  intros N C [|d a] b E; cbn in E; injection E as E0 E; [destruct N; now rewrite E0|]. exact (C a b E).
Qed.
Lemma clear_app_plain n x : ~ In newline n -> clear_of begins x -> clear_of begins (n ++ x).
Proof. induction n as [|c n IH]; intros N C; [exact C|]. cbn [app]. apply clear_cons; [intros ->; apply N; now left|apply IH; auto]. intros I. apply N. now right. Qed.
Lemma name_clear name : ~ In quote name -> clear_of [quote] name.
Proof.
  intros N a b E. destruct (Nat.le_gt_cases (List.length a) (List.length name)) as [LE|GT].
  - destruct (app_split a ([quote] ++ b) name [quote] (eq_sym E) LE) as (e&E1&E2). destruct e as [|y e]; cbn in E2; [now injection E2|]. injection E2 as E2 E3. destruct N. rewrite E1. apply in_or_app. right. left. now symmetry.
  - apply (f_equal (@List.length ascii)) in E. rewrite !app_length in E. cbn in E. lia.
Qed.
Lemma page_head unity a b ps : page unity a b ps = [] \/ exists r, page unity a b ps = newline :: r.
Proof. destruct ps as [|[x|n x|n y x] ps]; [now left|right|right|right]; eexists; reflexivity. Qed.
Lemma no_flag x r : (forall y, x <> L " 1" ++ y) -> (r = [] \/ exists r', r = newline :: r') -> starts_with [quote; space; "1"%char] (quote :: x ++ r) = false.
Proof.
  intros N H. destruct (starts_with [quote; space; "1"%char] (quote :: x ++ r)) eqn:S; [|reflexivity]. apply starts_with_iff in S. destruct S as (y&E). cbn in E. injection E as E.
  exfalso. destruct x as [|c [|d x]]; cbn in E.
  - destruct H as [->|(r'&->)]; discriminate.
  - injection E as -> E. destruct H as [->|(r'&->)]; discriminate.
  - injection E as -> -> E. apply (N x). reflexivity.
Qed.
Lemma loop_page unity ps : Forall (part_ok unity) ps -> forall x fuel, clear_of begins x -> List.length (x ++ page unity "1" "2" ps) < fuel ->
  fix_loop fuel (pop_text unity) (x ++ page unity "1" "2" ps) = x ++ page unity space space ps.
Proof.
  assert (B0 : begins <> []) by discriminate.
  induction 1 as [|p ps OK F IH]; intros x fuel C LE; (destruct fuel as [|fuel]; [lia|]); cbn [fix_loop].
  - change (page unity "1" "2" []) with (@nil ascii) in *. change (page unity space space []) with (@nil ascii). rewrite app_nil_r in *.
    change push_mark with begins. rewrite (find_none begins x B0) by (now apply clear_none). reflexivity.
  - change (page unity "1" "2" (p :: ps)) with (written unity "1" "2" p ++ page unity "1" "2" ps) in *.
    change (page unity space space (p :: ps)) with (written unity space space p ++ page unity space space ps). change push_mark with begins.
    pose proof (page_head unity "1" "2" ps) as PH.
    destruct p as [code|name code|name body code]; cbn [written] in *; rewrite <- ?app_assoc in *.
    + rewrite (find_at begins x) by assumption. cbn [app]. change (hd nul ("<"%char :: code ++ page unity "1" "2" ps)) with "<"%char. rewrite Ascii.eqb_refl.
      do 2 f_equal. change ("<"%char :: code ++ page unity "1" "2" ps) with (("<"%char :: code) ++ page unity "1" "2" ps). rewrite IH; [reflexivity|exact OK|].
      rewrite !app_length in *. cbn in *. lia.
    + destruct OK as (NQ&NL&NF&CC). rewrite (find_at begins x) by assumption.
      assert (H : Ascii.eqb (hd nul (name ++ [quote] ++ code ++ page unity "1" "2" ps)) "<" = false) by (apply Ascii.eqb_neq; destruct name; [discriminate|exact NL]).
      rewrite H. rewrite (find_at [quote] name) by (discriminate || now apply name_clear). rewrite no_flag by assumption. do 3 f_equal.
      change (quote :: code ++ page unity "1" "2" ps) with ((quote :: code) ++ page unity "1" "2" ps). rewrite IH; [reflexivity|now apply clear_cons|].
      rewrite !app_length in *. cbn in *. lia.
    + destruct OK as (NQ&NL&CB&CC). rewrite (find_at begins x) by assumption.
      assert (H : forall r, Ascii.eqb (hd nul (name ++ [quote] ++ r)) "<" = false) by (intros r; apply Ascii.eqb_neq; destruct name; [discriminate|exact NL]).
      rewrite H. rewrite (find_at [quote] name) by (discriminate || now apply name_clear).
      change (quote :: L " " ++ ["1"%char] ++ body ++ returns unity "2" ++ code ++ page unity "1" "2" ps) with ([quote; space; "1"%char] ++ body ++ returns unity "2" ++ code ++ page unity "1" "2" ps).
      assert (SW : forall r, starts_with [quote; space; "1"%char] ([quote; space; "1"%char] ++ r) = true) by (intros r; apply starts_with_iff; now exists r).
      rewrite SW. change (skipn 2 (L " " ++ ["1"%char] ++ body ++ returns unity "2" ++ code ++ page unity "1" "2" ps)) with (body ++ returns unity "2" ++ code ++ page unity "1" "2" ps).
      change (returns unity "2") with (pop_text unity) in *. rewrite (find_at (pop_text unity) body) by (discriminate || assumption).
      assert (RP : returns unity space = removelast (pop_text unity) ++ [space]).
      { pose proof (removelast_pop unity) as R. unfold returns. assert (E : pop_text unity = (L " " ++ [quote] ++ unity ++ [quote] ++ L " ") ++ ["2"%char]) by (unfold pop_text; cbn [L]; rewrite <- !app_assoc; reflexivity).
        rewrite E, removelast_last, <- !app_assoc. reflexivity. }
      rewrite RP, <- !app_assoc. change ([quote; space; space] ++ body ++ ?r) with ([quote] ++ L " " ++ [space] ++ body ++ r). do 7 f_equal.
      change (space :: code ++ page unity "1" "2" ps) with ((space :: code) ++ page unity "1" "2" ps). rewrite IH; [reflexivity|now apply clear_cons|].
      rewrite !app_length in *. cbn in *. lia.
Qed.

(** Proofs about directory listings: each name once, in order. *)
From Coq Require Import String List Arith Bool Ascii NArith Lia Permutation Sorted.
From Verif Require Import M_Path M_Names M_Glob M_Sort M_Cond M_Dir S_Glob S_Cond S_Dir S_Sort P_Sort P_Cond T_Path T_Glob T_Sort P_Dir.
Import ListNotations.
Open Scope list_scope.

(** *** The order *)
Lemma less_before a : forall b, less a b = true <-> before a b.
Proof.
  unfold less. induction a as [|x a IH]; intros [|y b]; cbn [scmp].
  - split; [discriminate|]. intros H. inversion H.
  - split; [constructor|reflexivity].
  - split; [discriminate|]. intros H. inversion H.
  - assert (NN : forall c, N_of_ascii c = N.of_nat (nat_of_ascii c)) by (intros c; unfold nat_of_ascii; now rewrite Nnat.N2Nat.id).
    destruct (N.compare_spec (N_of_ascii x) (N_of_ascii y)) as [E|E|E]; rewrite !NN in E.
    + assert (X : x = y) by (apply Nnat.Nat2N.inj in E; rewrite <- (ascii_nat_embedding x), <- (ascii_nat_embedding y); congruence). subst y. rewrite IH. split; [now constructor|].
      intros H. inversion H; subst; [lia|assumption].
    + split; [intros _; apply before_byte; lia|reflexivity].
    + split; [discriminate|]. intros H. inversion H; subst; lia.
Qed.
Lemma before_irrefl a : ~ before a a.
Proof. induction a as [|x a IH]; intros H; inversion H; subst; [lia|auto]. Qed.
Lemma before_trans a b c : before a b -> before b c -> before a c.
Proof.
  intros H. revert c. induction H as [x s|x y s t L1|x s t H IH]; intros c K; inversion K; subst; first [apply before_end|apply before_more; now apply IH|apply before_byte; lia].
Qed.
Lemma before_total a : forall b, before a b \/ a = b \/ before b a.
Proof.
  induction a as [|x a IH]; intros [|y b]; [tauto|left; constructor|right; right; constructor|].
  destruct (lt_eq_lt_dec (nat_of_ascii x) (nat_of_ascii y)) as [[H|H]|H]; [left; now apply before_byte| |right; right; now apply before_byte].
  assert (X : x = y) by (rewrite <- (ascii_nat_embedding x), <- (ascii_nat_embedding y); congruence). subst y.
  destruct (IH b) as [H'|[->|H']]; [left; now constructor|right; now left|right; right; now constructor].
Qed.
Lemma before_prefix d x : x <> [] -> before d (d ++ x).
Proof. intros N. induction d as [|c d IH]; [destruct x; [congruence|constructor]|]. cbn. now constructor. Qed.
Lemma less_weak : strict_weak less.
Proof.
  assert (F : forall a b, less a b = false <-> ~ before a b) by (intros a b; rewrite <- less_before; destruct (less a b); split; congruence).
  split.
  - intros x. apply F, before_irrefl.
  - intros x y z H1 H2. apply less_before in H1, H2. apply less_before. eapply before_trans; eauto.
  - intros x y z H1 H2 H3 H4. rewrite F in *. assert (x = y) by (destruct (before_total x y) as [H|[H|H]]; tauto). assert (y = z) by (destruct (before_total y z) as [H'|[H'|H']]; tauto).
    subst. split; first [apply before_irrefl|apply (proj2 (F _ _)); apply before_irrefl].
Qed.
Lemma less_file_weak : strict_weak less_file.
Proof. destruct less_weak as [A B C]. split; unfold less_file; [intros x; apply A|intros x y z; apply B|intros x y z; apply C]. Qed.

Definition by_name (a b : str * bool) : Prop := before (fst a) (fst b).
Lemma ordered_tail {A} (lt : A -> A -> bool) x l : ordered lt (x :: l) -> ordered lt l /\ forall y, In y l -> lt y x = false.
Proof.
  intros H. split.
  - intros i j a b LE Ea Eb. apply (H (S i) (S j) a b); [lia|exact Ea|exact Eb].
  - intros y I. apply In_nth_error in I as (n&E). apply (H 0 (S n) x y); [lia|reflexivity|exact E].
Qed.
Lemma ordered_strong {A} (f : A -> str) l : ordered (fun a b => less (f a) (f b)) l -> NoDup (map f l) -> StronglySorted (fun a b => before (f a) (f b)) l.
Proof.
  induction l as [|x l IH]; intros O N; [constructor|]. apply ordered_tail in O as [O H]. inversion N as [|? ? N1 N2]; subst. constructor; [auto|].
  apply Forall_forall. intros y I. specialize (H y I). destruct (before_total (f x) (f y)) as [Q|[Q|Q]]; [exact Q| |apply less_before in Q; congruence].
  destruct N1. rewrite Q. now apply in_map.
Qed.
Lemma strong_unique {A} (R : A -> A -> Prop) : (forall x, ~ R x x) -> (forall x y z, R x y -> R y z -> R x z) ->
  forall l l', StronglySorted R l -> StronglySorted R l' -> (forall x, In x l <-> In x l') -> l = l'.
Proof.
  intros IR TR. induction l as [|x l IH]; intros [|y l'] S S' E; [reflexivity|destruct (proj2 (E y) (or_introl eq_refl))|destruct (proj1 (E x) (or_introl eq_refl))|].
  inversion S as [|? ? S1 F1]; subst. inversion S' as [|? ? S2 F2]; subst. rewrite Forall_forall in F1, F2.
  assert (X : x = y).
  { destruct (proj1 (E x) (or_introl eq_refl)) as [Q|Q]; [auto|]. destruct (proj2 (E y) (or_introl eq_refl)) as [Q'|Q']; [auto|]. exfalso. apply (IR x). eapply TR; [apply F1, Q'|apply F2, Q]. }
  subst y. f_equal. apply IH; auto. intros z. specialize (E z). cbn in E. split; intros I.
  - destruct (proj1 E (or_intror I)) as [<-|Q]; [destruct (IR _ (F1 _ I))|exact Q].
  - destruct (proj2 E (or_intror I)) as [<-|Q]; [destruct (IR _ (F2 _ I))|exact Q].
Qed.

(** *** Each name once *)
Lemma NoDup_flat_map {A B K} (g : A -> list B) (key : A -> K) l : NoDup (map key l) -> (forall x, In x l -> NoDup (g x)) ->
  (forall x y a, In x l -> In y l -> In a (g x) -> In a (g y) -> key x = key y) -> NoDup (flat_map g l).
Proof.
  induction l as [|x l IH]; intros N H D; [constructor|]. cbn [flat_map map] in *. inversion N as [|? ? N1 N2]; subst.
  assert (A1 : NoDup (g x)) by (apply H; now left). assert (A2 : NoDup (flat_map g l)) by (apply IH; [exact N2|intros; apply H; now right|intros; eapply D; eauto; now right]).
  assert (A3 : forall a, In a (g x) -> ~ In a (flat_map g l)).
  { intros a I J. apply in_flat_map in J as (y&Iy&J). apply N1. rewrite (D x y a); [now apply in_map|now left|now right|exact I|exact J]. }
  clear - A1 A2 A3. induction (g x) as [|b r IH]; [exact A2|]. inversion A1; subst. cbn. constructor; [|apply IH; [assumption|intros a I; apply A3; now right]].
  intros I. apply in_app_or in I as [I|I]; [contradiction|]. apply (A3 b); [now left|exact I].
Qed.

Section P.
Context (p : plat).
Definition ending (t : str) : Prop := t = [] \/ exists x, t = native p :: x.
Lemma ending_inj n m t t' : ~ In (native p) n -> ~ In (native p) m -> ending t -> ending t' -> n ++ t = m ++ t' -> n = m /\ t = t'.
Proof.
  revert m. induction n as [|c n IH]; intros [|d m] N M E E' Q; cbn in Q.
  - auto.
  - exfalso. destruct E as [->|(x&->)]; [discriminate|]. injection Q as Q _. apply M. left. now symmetry.
  - exfalso. destruct E' as [->|(x&->)]; [discriminate|]. injection Q as Q _. apply N. left. auto.
  - injection Q as -> Q. destruct (IH m) with (5 := Q) as [-> ->]; auto; intros I; [apply N|apply M]; now right.
Qed.
Lemma files_shape o path e f ro : In (f, ro) (files_of p o path e) -> exists t, f = path ++ entry_name e ++ t /\ ending t.
Proof.
  revert path. induction e as [n r|n es IH] using entry_rec'; intros path I; cbn [files_of] in I.
  - destruct (_ && _); [|destruct I]. destruct I as [E|[]]. injection E as <- <-. exists []. split; [now rewrite app_nil_r|now left].
  - destruct (magic n); [destruct I|]. destruct (enters p o _); [|destruct I]. apply in_flat_map in I as (e&Ie&I). rewrite Forall_forall in IH. destruct (IH e Ie _ I) as (t&->&_).
    exists (native p :: entry_name e ++ t). split; [cbn; rewrite <- !app_assoc; reflexivity|right; eauto].
Qed.
Lemma dirs_shape o path e f : In f (dirs_of p o path e) -> exists t, f = path ++ entry_name e ++ t /\ ending t.
Proof.
  revert path. induction e as [n r|n es IH] using entry_rec'; intros path I; cbn [dirs_of] in I; [destruct I|].
  destruct (magic n); [destruct I|]. apply in_app_or in I as [I|I].
  - destruct (include_dirs o); [|destruct I]. destruct I as [<-|[]]. exists [native p]. split; [reflexivity|right; eauto].
  - destruct (enters p o _); [|destruct I]. apply in_flat_map in I as (e&Ie&I). rewrite Forall_forall in IH. destruct (IH e Ie _ I) as (t&->&_).
    exists (native p :: entry_name e ++ t). split; [cbn; rewrite <- !app_assoc; reflexivity|right; eauto].
Qed.
Lemma same_entry path n m t t' : name_ok p n -> name_ok p m -> ending t -> ending t' -> path ++ n ++ t = path ++ m ++ t' -> n = m.
Proof. intros (_&_&N) (_&_&M) E E' Q. apply app_inv_head in Q. destruct (ending_inj n m t t') with (5 := Q); auto. Qed.
Lemma files_once_list o path es : (forall e, In e es -> proper p e) -> NoDup (map entry_name es) -> (forall e, In e es -> NoDup (map fst (files_of p o path e))) ->
  NoDup (map fst (flat_map (files_of p o path) es)).
Proof.
  intros FA ND H. assert (E : map fst (flat_map (files_of p o path) es) = flat_map (fun e => map fst (files_of p o path e)) es).
  { clear. induction es as [|e es IH]; [reflexivity|]. cbn. now rewrite map_app, IH. }
  rewrite E. apply NoDup_flat_map with (key := entry_name); auto. intros x y a Ix Iy Jx Jy. apply in_map_iff in Jx as ([f r]&<-&Jx). apply in_map_iff in Jy as ([f' r']&Q&Jy). cbn in Q. subst f'. cbn in *.
  apply files_shape in Jx as (t&Q1&E1). apply files_shape in Jy as (t'&Q2&E2). apply (same_entry path _ _ t t'); auto; [apply proper_name, FA, Ix|apply proper_name, FA, Iy|congruence].
Qed.
Lemma files_once o e : forall path, proper p e -> NoDup (map fst (files_of p o path e)).
Proof.
  induction e as [n r|n es IH] using entry_rec'; intros path PR; cbn [files_of].
  - destruct (_ && _); [|constructor]. constructor; [intros []|constructor].
  - destruct (magic n); [constructor|]. destruct (enters p o _); [|constructor]. inversion PR as [|? ? NO FA ND]; subst. rewrite Forall_forall in IH, FA. apply files_once_list; auto.
Qed.
Lemma files_nodup o path es : tree p es -> NoDup (map fst (flat_map (files_of p o path) es)).
Proof. intros [FA ND]. rewrite Forall_forall in FA. apply files_once_list; auto. intros e I. apply files_once. auto. Qed.
Lemma dirs_once o e : forall path, proper p e -> NoDup (dirs_of p o path e).
Proof.
  induction e as [n r|n es IH] using entry_rec'; intros path PR; cbn [dirs_of]; [constructor|]. destruct (magic n); [constructor|].
  inversion PR as [|? ? NO FA ND]; subst. rewrite Forall_forall in IH, FA.
  assert (X : NoDup (if enters p o (path ++ n ++ [native p]) then flat_map (dirs_of p o (path ++ n ++ [native p])) es else [])).
  { destruct (enters p o _); [|constructor]. apply NoDup_flat_map with (key := entry_name); auto. intros x y a Ix Iy Jx Jy.
    apply dirs_shape in Jx as (t&Q1&E1). apply dirs_shape in Jy as (t'&Q2&E2). apply (same_entry (path ++ n ++ [native p]) _ _ t t'); auto; [apply proper_name, FA, Ix|apply proper_name, FA, Iy|congruence]. }
  destruct (include_dirs o); [|exact X]. cbn [app]. constructor; [|exact X]. destruct (enters p o _); [|intros []]. intros I. apply in_flat_map in I as (e&Ie&I). apply dirs_shape in I as (t&Q&_).
  rewrite <- (app_nil_r (path ++ n ++ [native p])) in Q at 1. apply app_inv_head in Q. symmetry in Q. apply app_eq_nil in Q as [Q _]. destruct (proper_name p e (FA e Ie)) as (NE&_). contradiction.
Qed.
Lemma dirs_nodup o path es : tree p es -> NoDup (flat_map (dirs_of p o path) es).
Proof.
  intros [FA ND]. rewrite Forall_forall in FA. apply NoDup_flat_map with (key := entry_name); auto; [intros e I; apply dirs_once; auto|]. intros x y a Ix Iy Jx Jy.
  apply dirs_shape in Jx as (t&Q1&E1). apply dirs_shape in Jy as (t'&Q2&E2). apply (same_entry path _ _ t t'); auto; [apply proper_name, FA, Ix|apply proper_name, FA, Iy|congruence].
Qed.

(** *** The listing *)
Lemma list_spec o path es : tree p es -> exists fs ds, list_dir p o path (Some es) = Some (fs, ds) /\
  Permutation (flat_map (files_of p o path) es) fs /\ Permutation (flat_map (dirs_of p o path) es) ds /\ StronglySorted by_name fs /\ StronglySorted before ds.
Proof.
  intros T. unfold list_dir. destruct (C26_sort_sorts _ less_file (flat_map (files_of p o path) es)) as (fs&->&P1&O1). destruct (C26_sort_sorts _ less (flat_map (dirs_of p o path) es)) as (ds&->&P2&O2).
  exists fs, ds. split; [reflexivity|]. split; [exact P1|]. split; [exact P2|]. split.
  - apply (ordered_strong fst); [apply O1, less_file_weak|]. apply (Permutation_NoDup (Permutation_map fst P1)). now apply files_nodup.
  - apply (ordered_strong (fun x => x)); [apply O2, less_weak|]. rewrite map_id. apply (Permutation_NoDup P2). now apply dirs_nodup.
Qed.
End P.

(** Proofs about compiler command lines: names put into arguments, and the text of the cache key. *)
From Coq Require Import String List Arith Bool Ascii Lia.
From Verif Require Import M_Path M_Args S_Args P_Args M_Drv S_Drv T_Path P_Drv P_Drv2 P_Drv3 P_Drv4.
Import ListNotations.
Open Scope list_scope.

Lemma lex_app_other : forall n a b, List.length a <= n -> hd space b <> quote -> lex (a ++ b) = lex a ++ lex b.
Proof.
  induction n as [|n IH]; intros a b H NQ; (destruct a as [|c a]; [reflexivity|cbn in H; try lia]).
  cbn [app lex]. destruct (Ascii.eqb c (ascii_of_nat 34)) eqn:Q; [cbn [app]; now rewrite IH by (auto; lia)|].
  destruct a as [|d a]; cbn [app].
  - destruct b as [|d b]; [reflexivity|]. destruct (Ascii.eqb c (ascii_of_nat 92) && Ascii.eqb d (ascii_of_nat 34)) eqn:B.
    + apply andb_prop in B. destruct B as [_ B]. apply Ascii.eqb_eq in B. exfalso. apply NQ. exact B.
    + reflexivity.
  - destruct (Ascii.eqb c (ascii_of_nat 92) && Ascii.eqb d (ascii_of_nat 34)); cbn [app].
    + rewrite IH; [reflexivity|cbn in H; lia|exact NQ].
    + change (d :: a ++ b) with ((d :: a) ++ b). rewrite IH; [reflexivity|cbn in *; lia|exact NQ].
Qed.
Lemma lex_plain_app n b : ~ In quote n -> last n nul <> bslash -> lex (n ++ b) = map Plain n ++ lex b.
Proof.
  induction n as [|c n IH]; intros NQ NL; [reflexivity|]. cbn [app map]. cbn [lex].
  destruct (Ascii.eqb c (ascii_of_nat 34)) eqn:Q; [apply Ascii.eqb_eq in Q; destruct NQ; now left|].
  assert (NQ' : ~ In quote n) by (intros I; apply NQ; now right).
  destruct n as [|d n].
  - cbn [app map]. cbn [last] in NL. destruct b as [|d b]; [reflexivity|]. destruct (Ascii.eqb c (ascii_of_nat 92) && Ascii.eqb d (ascii_of_nat 34)) eqn:B; [|reflexivity].
    apply andb_prop in B. destruct B as [B _]. apply Ascii.eqb_eq in B. exfalso. apply NL. exact B.
  - cbn [app]. destruct (Ascii.eqb c (ascii_of_nat 92) && Ascii.eqb d (ascii_of_nat 34)) eqn:B.
    + apply andb_prop in B. destruct B as [_ B]. apply Ascii.eqb_eq in B. destruct NQ'. left. exact B.
    + change (d :: n ++ b) with ((d :: n) ++ b). rewrite IH; [reflexivity|exact NQ'|exact NL].
Qed.

Fixpoint whole (q : bool) (us : list unit_) : Prop :=
  match us with
  | [] => True
  | QuoteMark :: r => whole (negb q) r
  | EscapedQuote :: r => whole q r
  | Plain c :: r => (c <> space \/ q = true) /\ whole q r
  end.
Lemma fields_whole_iff us : forall q, fields space q us = [us] <-> whole q us.
Proof.
  induction us as [|u us IH]; intros q; [split; reflexivity|].
  assert (K : forall q', match fields space q' us with h :: t => (u :: h) :: t | [] => [[u]] end = [u :: us] <-> whole q' us).
  { intros q'. rewrite <- IH. pose proof (fields_ne space q' us) as NE. destruct (fields space q' us) as [|h t]; [now destruct NE|].
    split; intros E; [injection E as -> ->; reflexivity|injection E as -> ->; reflexivity]. }
  cbn [fields whole]. destruct u as [| |c]; [apply K|apply K|].
  destruct (Ascii.eqb c space) eqn:E; cbn [andb].
  - apply Ascii.eqb_eq in E. destruct q; cbn [negb]; [|split; [discriminate|intros [[H|H] _]; [now destruct H|discriminate]]].
    etransitivity; [apply K|]. split; [intros H; split; [now right|exact H]|intros [_ H]; exact H].
  - apply Ascii.eqb_neq in E. etransitivity; [apply K|]. split; [intros H; split; [now left|exact H]|intros [_ H]; exact H].
Qed.
Lemma whole_app a : forall q b, whole q (a ++ b) <-> whole q a /\ whole (flips q a) b.
Proof.
  induction a as [|u a IH]; intros q b; [cbn; tauto|]. rewrite flips_cons. cbn [app whole]. destruct u as [| |c]; rewrite IH; tauto.
Qed.
Lemma quotes_app a b : quotes (a ++ b) = quotes a + quotes b.
Proof. unfold quotes. now rewrite filter_app, app_length. Qed.
Lemma quotes_plain n : quotes (map Plain n) = 0.
Proof. unfold quotes. induction n as [|c n IH]; [reflexivity|exact IH]. Qed.
Lemma whole_plain n : forall q, whole q (map Plain n) <-> ~ In space n \/ q = true.
Proof.
  induction n as [|c n IH]; intros q; cbn [map whole]; [split; [left; intros []|auto]|]. rewrite IH. cbn [In].
  destruct (ascii_dec c space) as [->|N]; tauto.
Qed.
Lemma put_single o a b n : single (a ++ o ++ b) -> ~ In quote o -> last o nul <> bslash -> o <> [] ->
  n <> [] -> ~ In quote n -> last n nul <> bslash -> (~ In space n \/ Nat.even (quotes (lex a)) = false) -> single (a ++ n ++ b).
Proof.
  intros (_&W&E) OQ OB ON NN NQ NB SP.
  assert (HD : forall m, m <> [] -> ~ In quote m -> hd space (m ++ b) <> quote) by (intros [|x m] X Y Z; [now destruct X|apply Y; now left]).
  assert (LX : forall m, m <> [] -> ~ In quote m -> last m nul <> bslash -> lex (a ++ m ++ b) = lex a ++ map Plain m ++ lex b).
  { intros m X Y Z. rewrite (lex_app_other (List.length a)) by (auto; apply le_n). now rewrite lex_plain_app. }
  rewrite (LX o ON OQ OB) in W, E. split; [destruct a; [destruct n; [now destruct NN|discriminate]|discriminate]|]. rewrite (LX n NN NQ NB).
  rewrite !quotes_app, quotes_plain in *. split; [|exact E]. apply fields_whole_iff in W. apply fields_whole_iff. rewrite !whole_app in *. destruct W as (W1&W2&W3).
  assert (FP : forall m q, flips q (map Plain m) = q) by (intros m q; unfold flips; now rewrite quotes_plain).
  rewrite !FP in *. repeat split; [exact W1| |exact W3]. apply whole_plain. destruct SP as [SP|SP]; [now left|right]. unfold flips. now rewrite SP.
Qed.

(** *** The key *)
Lemma common_self : forall x r pa pb m, ~ In nul x -> last x nul = "/"%char -> common (x) (x ++ r) pa pb m = ([], r, true).
Proof.
  induction x as [|c x IH]; intros r pa pb m N LA; [discriminate|].
  cbn [app common]. rewrite Ascii.eqb_refl. assert (NC : Ascii.eqb c nul = false) by (apply Ascii.eqb_neq; intros ->; apply N; now left). rewrite NC. cbn [negb andb].
  assert (N' : ~ In nul x) by (intros I; apply N; now right).
  destruct x as [|d x].
  - cbn in LA. subst c. cbn [any_slash]. cbn. destruct r; reflexivity.
  - destruct (any_slash c); apply IH; auto.
Qed.
Lemma relative_below d rel : ~ In nul d -> last d nul = "/"%char -> relative_path posix d (d ++ rel) = rel.
Proof.
  intros N LA. unfold relative_path. assert (R : exists w, d = w ++ ["/"%char]).
  { destruct (exists_last (l := d)) as (w&x&E); [intros ->; discriminate|]. subst d. rewrite last_last in LA. subst x. now exists w. }
  assert (B : match rev d with c :: _ => if Ascii.eqb c (native posix) then d else d ++ [native posix] | [] => d ++ [native posix] end = d).
  { destruct R as (w&->). rewrite rev_app_distr. reflexivity. }
  rewrite B, common_self by assumption. reflexivity.
Qed.

(** Proofs about names, aliases and strings of properties. *)
From Coq Require Import String List Arith Bool Ascii ZArith Lia.
From Verif Require Import M_Path M_Names M_Dir M_Props S_Props.
Import ListNotations.
Open Scope list_scope.

Lemma same_iff a b : same a b = true <-> a = b.
Proof. unfold same. destruct (list_eq_dec ascii_dec a b); split; congruence. Qed.
Lemma nty_iff a b : nty_eqb a b = true <-> a = b.
Proof.
  destruct a, b; cbn; split; intro H; try congruence; try discriminate.
  - apply Nat.eqb_eq in H. now subst.
  - injection H as ->. apply Nat.eqb_refl.
Qed.
Lemma nty_no a b : nty_eqb a b = false <-> a <> b.
Proof. destruct (nty_eqb a b) eqn:E; split; intro H; try congruence; [ apply nty_iff in E; congruence | intro F; apply nty_iff in F; congruence ]. Qed.

Lemma find_from_some f g : forall k j, find_from k f g = Some j ->
  exists i n, j = k + i /\ nth_error g i = Some n /\ f n = true.
Proof.
  induction g as [|n g IH]; cbn [find_from]; intros k j H; [ discriminate | ].
  destruct (f n) eqn:E.
  - injection H as <-. exists 0, n. split; [ lia | ]. split; [ reflexivity | exact E ].
  - apply IH in H. destruct H as (i & m & -> & A & B). exists (S i), m. split; [ lia | ]. split; [ exact A | exact B ].
Qed.
Lemma find_from_none f g : forall k, find_from k f g = None -> forall i n, nth_error g i = Some n -> f n = false.
Proof.
  induction g as [|n g IH]; cbn [find_from]; intros k H i m N; [ destruct i; discriminate | ].
  destruct (f n) eqn:E; [ discriminate | ].
  destruct i as [|i]; [ injection N as <-; exact E | exact (IH (S k) H i m N) ].
Qed.

Definition uniq (g : graph) : Prop := forall i j ni nj, nth_error g i = Some ni -> nth_error g j = Some nj ->
  lower (nname ni) = lower (nname nj) -> i = j.

Lemma as_is_some g s k : uniq g -> (find_as_is g s = Some k <-> goes_by g s k).
Proof.
  intro U. split.
  - intro H. apply find_from_some in H. destruct H as (i & n & -> & A & B). cbn. exists n. split; [ exact A | ].
    now apply same_iff.
  - intros (n & A & B). unfold find_as_is.
    destruct (find_from 0 (fun n0 => same (lower (nname n0)) (lower s)) g) as [j|] eqn:E.
    + apply find_from_some in E. destruct E as (i & m & -> & C & D). apply same_iff in D.
      f_equal. cbn. eapply U; [ exact C | exact A | congruence ].
    + pose proof (find_from_none _ _ _ E _ _ A) as F. cbn beta in F.
      assert (G : same (lower (nname n)) (lower s) = true) by now apply same_iff. congruence.
Qed.
Lemma as_is_none g s : find_as_is g s = None <-> forall k, ~ goes_by g s k.
Proof.
  split.
  - intros H k (n & A & B). pose proof (find_from_none _ _ _ H _ _ A) as F. cbn beta in F.
    assert (G : same (lower (nname n)) (lower s) = true) by now apply same_iff. congruence.
  - intro H. unfold find_as_is. destruct (find_from _ _ g) as [j|] eqn:E; [ exfalso | reflexivity ].
    apply find_from_some in E. destruct E as (i & m & -> & C & D). apply same_iff in D.
    apply (H i). now exists m.
Qed.
Lemma find_some cp g s k : uniq g -> (find_node cp g s = Some k <-> called cp g s k).
Proof.
  intro U. unfold find_node, called. destruct (find_as_is g s) as [j|] eqn:E.
  - pose proof (proj1 (as_is_some g s j U) E) as J. split.
    + intro H. injection H as <-. now left.
    + intros [H|[H _]]; [ | destruct (H j J) ]. apply (as_is_some g s k U) in H. congruence.
  - pose proof (proj1 (as_is_none g s) E) as J. rewrite (as_is_some g (cp s) k U). split.
    + intro H. right. auto.
    + intros [H|[_ H]]; [ destruct (J k H) | exact H ].
Qed.
Lemma find_none cp g s : uniq g -> (find_node cp g s = None <-> forall k, ~ called cp g s k).
Proof.
  intro U. split.
  - intros H k C. apply (find_some cp g s k U) in C. congruence.
  - intro H. destruct (find_node cp g s) as [k|] eqn:E; [ | reflexivity ].
    destruct (H k). now apply find_some.
Qed.
Lemma find_own cp g k n : uniq g -> nth_error g k = Some n -> find_node cp g (nname n) = Some k.
Proof. intros U N. apply (find_some _ _ _ _ U). left. exists n. auto. Qed.
Lemma find_bound cp g s k : find_node cp g s = Some k -> k < List.length g.
Proof.
  unfold find_node. destruct (find_as_is g s) eqn:E; intro H.
  - injection H as <-. apply find_from_some in E. destruct E as (i & m & -> & C & _). cbn. apply nth_error_Some. congruence.
  - apply find_from_some in H. destruct H as (i & m & -> & C & _). cbn. apply nth_error_Some. congruence.
Qed.

(** ** Slashes *)
Section Plat.
Context (p : plat).
Notation sl := (Ascii.eqb (native p)).

Lemma pair_ind (P : str -> Prop) : P [] -> (forall a, P [a]) -> (forall a b u, P u -> P (b :: u) -> P (a :: b :: u)) -> forall s, P s.
Proof.
  intros H0 H1 H2 s. enough (E : P s /\ forall a, P (a :: s)) by apply E.
  induction s as [|b u [I J]]; [ auto | ]. split; [ apply J | ]. intro a. apply H2; auto.
Qed.
Lemma one_slash_two a b u : one_slash p (a :: b :: u) =
  if Ascii.eqb a (native p) && Ascii.eqb b (native p) then one_slash p (b :: u) else a :: one_slash p (b :: u).
Proof. reflexivity. Qed.
Lemma halve_two a b u : halve p (a :: b :: u) =
  if Ascii.eqb a (native p) && Ascii.eqb b (native p)
  then let '(x, _) := halve p u in (native p :: x, true)
  else let '(x, c) := halve p (b :: u) in (a :: x, c).
Proof. reflexivity. Qed.
(** Putting a letter in front of texts that become the same. *)
Lemma one_slash_cons a s t : one_slash p s = one_slash p t -> (s = [] <-> t = []) ->
  (forall x, hd_error s = Some x -> hd_error t = Some x) ->
  one_slash p (a :: s) = one_slash p (a :: t).
Proof.
  intros H E F. destruct s as [|b u].
  - destruct t; [ reflexivity | ]. destruct (proj1 E eq_refl). reflexivity.
  - destruct t as [|c w]; [ discriminate (proj2 E eq_refl) | ].
    specialize (F b eq_refl). injection F as ->. rewrite !one_slash_two, H. reflexivity.
Qed.
Lemma halve_facts s : one_slash p (fst (halve p s)) = one_slash p s /\
  (fst (halve p s) = [] <-> s = []) /\
  (forall x, hd_error (fst (halve p s)) = Some x -> hd_error s = Some x) /\
  (snd (halve p s) = false -> one_slash p s = s /\ fst (halve p s) = s) /\
  (snd (halve p s) = true -> List.length (fst (halve p s)) < List.length s) /\
  List.length (fst (halve p s)) <= List.length s.
Proof.
  induction s as [| a | a b u IU IB] using pair_ind.
  - cbn. repeat split; auto; discriminate.
  - cbn. repeat split; auto; discriminate.
  - rewrite halve_two. destruct (Ascii.eqb a (native p) && Ascii.eqb b (native p)) eqn:E.
    + destruct (halve p u) as [x c] eqn:X. cbn [fst snd] in *.
      apply andb_true_iff in E. destruct E as [E1 E2]. apply Ascii.eqb_eq in E1, E2. subst a b.
      destruct IU as (I1 & I2 & I3 & _ & _ & I6).
      split. { rewrite one_slash_two, !Ascii.eqb_refl. cbn [andb]. now apply one_slash_cons. }
      split. { split; discriminate. }
      split. { intros y H. exact H. }
      split. { discriminate. }
      cbn [List.length]. split; [ intros _ | ]; lia.
    + destruct (halve p (b :: u)) as [x c] eqn:X. cbn [fst snd] in *.
      destruct IB as (I1 & I2 & I3 & I4 & I5 & I6).
      split. { now apply one_slash_cons. }
      split. { split; discriminate. }
      split. { intros y H. exact H. }
      split. { intro C. destruct (I4 C) as [J1 J2]. rewrite one_slash_two, E, J1, J2. auto. }
      cbn [List.length] in *. split; [ intro C; specialize (I5 C) | ]; lia.
Qed.
Lemma squeeze_one f : forall s, List.length s < f -> squeeze p f s = one_slash p s.
Proof.
  induction f as [|f IH]; intros s L; [ lia | ]. cbn [squeeze].
  pose proof (halve_facts s) as (H1 & _ & _ & H4 & H5 & _). destruct (halve p s) as [x c]. cbn [fst snd] in *.
  destruct c.
  - rewrite IH; [ exact H1 | ]. specialize (H5 eq_refl). lia.
  - destruct (H4 eq_refl) as [J1 J2]. congruence.
Qed.
Lemma fixup_file_is s : fixup_file p s = one_slash p (slashes p s).
Proof. unfold fixup_file. apply squeeze_one. unfold native_only, slashes. rewrite map_length. lia. Qed.
Lemma fixup_folder_is s : fixup_folder p s =
  let u := (if unc p (slashes p s) then [native p] else []) ++ one_slash p (slashes p s) in
  if ends_with u [native p] then u else u ++ [native p].
Proof.
  unfold fixup_folder. change (native_only p s) with (slashes p s).
  rewrite squeeze_one by (unfold slashes; rewrite map_length; lia).
  unfold unc. destruct (windows p && starts_with [native p; native p] (slashes p s)); reflexivity.
Qed.
Lemma fix_path_is cp m s t : fix_path p cp m s = Some t <-> written p cp m s t.
Proof.
  unfold fix_path, written. split.
  - intro H. eexists. split.
    + instantiate (1 := match path m with Some true => fixup_folder p s | Some false => ensure_trailing p (cp s) | None => s end).
      unfold as_folder. destruct (path m) as [[|]|]; auto. apply fixup_folder_is.
    + unfold as_file. destruct (file m) as [[|]|].
      * rewrite fixup_file_is in H. destruct (is_folder p _) eqn:F in H; [ discriminate | ]. injection H as <-. auto.
      * destruct (is_folder p _) eqn:F in H; [ discriminate | ]. injection H as <-. auto.
      * congruence.
  - intros (u & A & B).
    assert (U : match path m with Some true => fixup_folder p s | Some false => ensure_trailing p (cp s) | None => s end = u).
    { unfold as_folder in A. destruct (path m) as [[|]|]; auto. rewrite fixup_folder_is. now symmetry. }
    rewrite U. unfold as_file in B. destruct (file m) as [[|]|].
    + destruct B as [-> B]. now rewrite fixup_file_is, B.
    + destruct B as [-> B]. now rewrite B.
    + now subst.
Qed.
End Plat.

(** ** Aliases *)
Lemma healthy_uniq g : healthy g -> uniq g.
Proof. intros [U _ _ _]. exact U. Qed.
Lemma stands_unique g : forall k l1, stands_for g k l1 -> forall l2, stands_for g k l2 -> l1 = l2.
Proof.
  fix IH 3. intros k l1 H l2 G. destruct H as [k n N T | k n ls N T F].
  - inversion G; subst; [ reflexivity | congruence ].
  - inversion G; subst; [ congruence | ]. replace n0 with n in * by congruence. clear G N T H H0.
    f_equal. revert ls0 H1. induction F as [|t l ts ls HD F IHF]; intros ls0 G; inversion G; subst; [ reflexivity | ].
    f_equal; [ exact (IH _ _ HD _ H1) | auto ].
Qed.
Lemma stands_exists g : healthy g -> forall k n, nth_error g k = Some n -> exists ls, stands_for g k ls.
Proof.
  intros [_ _ _ B]. assert (A : forall d k n, k < d -> nth_error g k = Some n -> exists ls, stands_for g k ls).
  { induction d as [|d IH]; intros k n L N; [ lia | ].
    destruct (nty_eqb (ntype n) TyAlias) eqn:E.
    - apply nty_iff in E. specialize (B k n). 
      assert (X : exists ls, Forall2 (stands_for g) (aliased n) ls).
      { assert (Y : forall t, In t (aliased n) -> exists x, nth_error g t = Some x /\ (ntype x = TyAlias -> t < k)) by (intros; now apply B).
        clear B. induction (aliased n) as [|t ts IHt]; [ exists []; constructor | ].
        destruct IHt as (ls & F); [ intros; apply Y; now right | ].
        destruct (Y t (or_introl eq_refl)) as (x & X & Z).
        destruct (nty_eqb (ntype x) TyAlias) eqn:Q.
        - apply nty_iff in Q. destruct (IH t x ltac:(specialize (Z Q); lia) X) as (l & S). exists (l :: ls). now constructor.
        - apply nty_no in Q. exists ([t] :: ls). constructor; [ eapply stands_self; eauto | exact F ]. }
      destruct X as (ls & F). exists (concat ls). eapply stands_alias; eauto.
    - apply nty_no in E. exists [k]. eapply stands_self; eauto. }
  intros k n N. eapply A; eauto.
Qed.
Lemma stands_leaves g k ls : stands_for g k ls -> forall x, In x ls -> exists n, nth_error g x = Some n /\ ntype n <> TyAlias.
Proof.
  revert k ls. fix IH 3. intros k ls H x I. destruct H as [k n N T | k n ls N T F].
  - destruct I as [<-|[]]. eauto.
  - clear N T. revert I. induction F as [|t l ts ls HD F IHF]; cbn [concat]; intro I; [ destruct I | ].
    apply in_app_iff in I. destruct I as [I|I]; [ exact (IH _ _ HD x I) | auto ].
Qed.

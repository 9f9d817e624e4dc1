From Coq Require Import List Arith Bool Lia Permutation NArith.
From Verif Require Import M_Array M_Sort S_Sort.
Import ListNotations.

Lemma set_perm_swap {A} (a : list A) : forall i j x y b c, i <> j -> get a j = Some y ->
  set a i y = Some b -> set b j x = Some c -> forall d, set a i x = Some d -> Permutation d c.
Proof.
  induction a as [|z a IH]; intros i j x y b c N G H1 H2 d H3; [destruct i; discriminate|].
  destruct i as [|i], j as [|j]; try congruence; cbn in *.
  - injection H1 as <-. injection H3 as <-. cbn in H2. destruct (set a j x) as [a'|] eqn:E; [|discriminate].
    injection H2 as <-.
    (* x :: a ~ y :: a[j:=x] where a[j]=y *)
    clear IH N. revert j a' G E. induction a as [|w a IH]; intros [|j] a' G E; cbn in *; try discriminate.
    + injection G as ->. injection E as <-. apply perm_swap.
    + destruct (set a j x) as [a''|] eqn:E2; [|discriminate]. injection E as <-.
      specialize (IH _ _ G E2).
      eapply perm_trans; [apply perm_swap|]. eapply perm_trans; [|apply perm_swap]. now apply perm_skip.
  - injection G as ->. destruct (set a i y) as [b'|] eqn:E; [|discriminate]. injection H1 as <-.
    cbn in H2. injection H2 as <-. destruct (set a i x) as [d'|] eqn:E2; [|discriminate]. injection H3 as <-.
    clear IH N. revert i b' d' E E2. induction a as [|w a IH]; intros [|i] b' d' E E2; cbn in *; try discriminate.
    + injection E as <-. injection E2 as <-. apply perm_swap.
    + destruct (set a i y) as [b''|] eqn:F; [|discriminate]. injection E as <-.
      destruct (set a i x) as [d''|] eqn:F2; [|discriminate]. injection E2 as <-.
      specialize (IH _ _ _ F F2).
      eapply perm_trans; [apply perm_swap|]. eapply perm_trans; [|apply perm_swap]. now apply perm_skip.
  - destruct (set a i y) as [b'|] eqn:E; [|discriminate]. injection H1 as <-. cbn in H2.
    destruct (set b' j x) as [c'|] eqn:E2; [|discriminate]. injection H2 as <-.
    destruct (set a i x) as [d'|] eqn:E3; [|discriminate]. injection H3 as <-.
    apply perm_skip. eapply (IH i j x y b' c'); eauto.
Qed.

Section S.
Context {A : Type} (lt : A -> A -> bool).

Lemma sift_ok inc (HI : 0 < inc) : forall f a temp j, j < f -> j < length a ->
  exists b, sift lt f inc a temp j = Some b /\ length b = length a /\
            forall d, set a j temp = Some d -> Permutation d b.
Proof.
  induction f as [|f IH]; intros a temp j HF HL; [lia|]. cbn [sift].
  destruct (inc <=? j) eqn:E.
  - apply Nat.leb_le in E. destruct (get_lt a (j - inc)) as [y G]; [lia|]. rewrite G.
    destruct (lt temp y).
    + destruct (set_lt a j y HL) as [a' S1]. rewrite S1. pose proof (set_len _ _ _ _ S1) as L1.
      destruct (IH a' temp (j - inc)) as (b&Q&L&P); [lia|lia|]. exists b. split; auto. split; [lia|].
      intros d Hd. destruct (set_lt a' (j - inc) temp) as [c S2]; [lia|].
      eapply perm_trans; [|apply (P c S2)].
      eapply (set_perm_swap a j (j - inc) temp y); eauto. lia.
    + destruct (set_lt a j temp HL) as [b S1]. exists b. split; auto. split; [eapply set_len; eauto|].
      intros d Hd. rewrite S1 in Hd. injection Hd as ->. reflexivity.
  - destruct (set_lt a j temp HL) as [b S1]. exists b. split; auto. split; [eapply set_len; eauto|].
    intros d Hd. rewrite S1 in Hd. injection Hd as ->. reflexivity.
Qed.

Lemma pass_ok inc (HI : 0 < inc) : forall n a i, n + i <= length a ->
  exists b, pass lt n inc a i = Some b /\ length b = length a /\ Permutation a b.
Proof.
  induction n as [|n IH]; intros a i H; cbn [pass]; [eauto|].
  destruct (get_lt a i) as [t G]; [lia|]. rewrite G.
  destruct (sift_ok inc HI (S i) a t i) as (b&Q&L&P); [lia|lia|]. rewrite Q.
  destruct (IH b (S i)) as (c&Q2&L2&P2); [lia|]. exists c. split; auto. split; [lia|].
  eapply perm_trans; [|exact P2]. apply P. now apply set_same.
Qed.

Lemma gaps_ok : forall gaps a, (forall g, In g gaps -> 0 < g) ->
  exists b, sort_gaps lt gaps a = Some b /\ length b = length a /\ Permutation a b.
Proof.
  induction gaps as [|g r IH]; intros a H; cbn [sort_gaps]; [eauto|].
  assert (HR : forall x, In x r -> 0 < x) by (intros; apply H; now right).
  destruct (length a <? g); [auto|].
  destruct (pass_ok g ltac:(apply H; now left) (length a) a 0) as (b&Q&L&P); [lia|]. rewrite Q.
  destruct (IH b HR) as (c&Q2&L2&P2). exists c. split; auto. split; [lia|]. eapply perm_trans; eauto.
Qed.

(** The pass with increment 1 sorts. *)
Context (SW : strict_weak lt).
Lemma sw_asym x y : lt x y = true -> lt y x = false.
Proof.
  intros H. destruct (lt y x) eqn:E; auto. pose proof (sw_trans _ SW _ _ _ H E).
  rewrite (sw_irrefl _ SW) in H0. discriminate.
Qed.
Lemma sw_neg x y z : lt y x = false -> lt z y = false -> lt z x = false.
Proof.
  intros H1 H2. destruct (lt z x) eqn:E; auto.
  destruct (lt x y) eqn:E1.
  - rewrite (sw_trans _ SW _ _ _ E E1) in H2. discriminate.
  - destruct (lt y z) eqn:E2.
    + rewrite (sw_trans _ SW _ _ _ E2 E) in H1. discriminate.
    + destruct (sw_incomp _ SW x y z); auto. congruence.
Qed.

(* positions p<q<=i of [a] other than the hole [j] are in order, those after the hole exceed temp *)
Definition hole (a : list A) (temp : A) (i j : nat) : Prop :=
  (forall p q x y, p < q <= i -> p <> j -> q <> j -> get a p = Some x -> get a q = Some y -> lt y x = false) /\
  (forall q y, j < q <= i -> get a q = Some y -> lt temp y = true).

Definition ordered_upto (a : list A) (n : nat) : Prop :=
  forall p q x y, p < q < n -> get a p = Some x -> get a q = Some y -> lt y x = false.

Lemma sift_sorts : forall f a temp i j b, j <= i -> hole a temp i j ->
  sift lt f 1 a temp j = Some b -> ordered_upto b (S i).
Proof.
  assert (FIN : forall a temp i j b, j <= i -> hole a temp i j ->
      (forall y, 0 < j -> get a (j - 1) = Some y -> lt temp y = false) ->
      set a j temp = Some b -> ordered_upto b (S i)).
  { intros a temp i j b LE [H1 H2] HS HB p q x y R G1 G2.
    destruct (Nat.eq_dec q j) as [->|NQ].
    - rewrite (set_get_same _ _ _ _ HB) in G2. injection G2 as <-.
      rewrite (set_get_other _ _ _ _ p HB) in G1 by lia.
      destruct (Nat.eq_dec p (j - 1)) as [->|NP].
      + apply HS; auto. lia.
      + pose proof (set_len _ _ _ _ HB). pose proof (get_some _ _ _ (set_get_same _ _ _ _ HB)).
        destruct (get_lt a (j - 1)) as [w GW]; [lia|].
        assert (lt w x = false) by (apply (H1 p (j - 1)); auto; lia).
        assert (lt temp w = false) by (apply HS; auto; lia).
        eapply sw_neg; eauto.
    - rewrite (set_get_other _ _ _ _ q HB) in G2 by auto.
      destruct (Nat.eq_dec p j) as [->|NP].
      + rewrite (set_get_same _ _ _ _ HB) in G1. injection G1 as <-. apply sw_asym. apply (H2 q); auto. lia.
      + rewrite (set_get_other _ _ _ _ p HB) in G1 by auto. apply (H1 p q); auto. lia. }
  induction f as [|f IH]; intros a temp i j b LE HH H; [discriminate|]. cbn [sift] in H.
  destruct (1 <=? j) eqn:E.
  - apply Nat.leb_le in E. destruct (get a (j - 1)) as [y|] eqn:G; [|discriminate].
    destruct (lt temp y) eqn:C.
    + destruct (set a j y) as [a'|] eqn:S1; [|discriminate].
      eapply (IH a' temp i (j - 1)); eauto; [lia|]. destruct HH as [H1 H2]. split.
      * intros p q x z R NP NQ G1 G2.
        destruct (Nat.eq_dec q j) as [->|NQ'].
        -- rewrite (set_get_same _ _ _ _ S1) in G2. injection G2 as <-.
           rewrite (set_get_other _ _ _ _ p S1) in G1 by lia. apply (H1 p (j - 1)); auto; lia.
        -- rewrite (set_get_other _ _ _ _ q S1) in G2 by auto.
           destruct (Nat.eq_dec p j) as [->|NP'].
           ++ rewrite (set_get_same _ _ _ _ S1) in G1. injection G1 as <-. apply (H1 (j - 1) q); auto; lia.
           ++ rewrite (set_get_other _ _ _ _ p S1) in G1 by auto. apply (H1 p q); auto.
      * intros q z R G2. destruct (Nat.eq_dec q j) as [->|NQ'].
        -- rewrite (set_get_same _ _ _ _ S1) in G2. now injection G2 as <-.
        -- rewrite (set_get_other _ _ _ _ q S1) in G2 by auto. apply (H2 q); auto. lia.
    + eapply FIN; eauto. intros w _ GW. congruence.
  - apply Nat.leb_gt in E. eapply FIN; eauto. intros; lia.
Qed.

Lemma pass_sorts : forall n a i b, ordered_upto a i -> pass lt n 1 a i = Some b -> ordered_upto b (n + i).
Proof.
  induction n as [|n IH]; intros a i b O H; cbn [pass] in H; [injection H as <-; auto|].
  destruct (get a i) as [t|] eqn:G; [|discriminate].
  destruct (sift lt (S i) 1 a t i) as [a'|] eqn:S1; [|discriminate].
  replace (S n + i) with (n + S i) by lia. eapply IH; [|exact H].
  eapply sift_sorts; [| |exact S1]; [lia|]. split.
  - intros p q x y R NP NQ. apply O. lia.
  - intros; lia.
Qed.

Lemma gaps_sorts : forall gaps a b, last gaps 0 = 1 -> sort_gaps lt gaps a = Some b -> ordered lt b.
Proof.
  induction gaps as [|g r IH]; intros a b HL H; [discriminate|].
  destruct r as [|g' r'].
  - cbn in HL. subst g. cbn [sort_gaps] in H. destruct (length a <? 1) eqn:E.
    + injection H as <-. apply Nat.ltb_lt in E. destruct a; [|cbn in E; lia].
      intros i j x y _ Hx. destruct i; discriminate.
    + destruct (pass lt (length a) 1 a 0) as [c|] eqn:P; [|discriminate]. injection H as <-.
      assert (O : ordered_upto c (length a + 0)).
      { eapply pass_sorts; [|exact P]. intros p q x y R. lia. }
      destruct (pass_ok 1 ltac:(lia) (length a) a 0) as (c'&P'&L&_); [lia|]. rewrite P in P'. injection P' as <-.
      intros i j x y R G1 G2. apply (O i j); auto. apply get_some in G2. lia.
  - cbn [sort_gaps] in H. cbn [last] in HL. destruct (length a <? g); [eapply IH; eauto|].
    destruct (pass lt (length a) g a 0); [|discriminate]. eapply IH; eauto.
Qed.
End S.

Lemma ciura_pos g : In g ciura -> 0 < g.
Proof.
  unfold ciura. intros H. apply in_map_iff in H. destruct H as (n&<-&H).
  assert (0 < n)%N by (cbn in H; repeat (destruct H as [<-|H]; [lia|]); destruct H). lia.
Qed.
Lemma ciura_last : last ciura 0 = 1.
Proof. reflexivity. Qed.

Lemma shell_sort_spec {A} (lt : A -> A -> bool) a :
  exists b, shell_sort lt a = Some b /\ Permutation a b /\ (strict_weak lt -> ordered lt b).
Proof.
  destruct (gaps_ok lt ciura a ciura_pos) as (b&E&L&P). exists b. split; auto. split; auto.
  intros SW. eapply gaps_sorts; eauto. apply ciura_last.
Qed.

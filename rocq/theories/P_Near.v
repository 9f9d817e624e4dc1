From Coq Require Import List Arith Bool Ascii NArith Lia Permutation Sorted.
From Verif Require Import M_Path M_Names M_Array M_Lev S_Lev P_Lev.
Import ListNotations.

Section N.
Context {A : Type}.
Notation E := (A * nat)%type.

Lemma get_mid (a : list E) x b : get (a ++ x :: b) (List.length a) = Some x.
Proof. unfold get. induction a; cbn; auto. Qed.
Lemma set_mid (a : list E) x b y : set (a ++ x :: b) (List.length a) y = Some (a ++ y :: b).
Proof. induction a as [|c a IH]; cbn; auto. now rewrite IH. Qed.

Definition hi_ok (d : nat) (l : list E) := Forall (fun e => d < snd e) l.
Definition lo_ok (d : nat) (l : list E) := Forall (fun e => snd e <= d) l.

Lemma shift_lo lo d rest : lo_ok d lo -> shift (lo ++ rest) d (List.length lo) = Some (lo ++ rest, List.length lo).
Proof.
  intros F. destruct lo as [|e lo _] using rev_ind; [reflexivity|].
  rewrite app_length. cbn [List.length]. rewrite Nat.add_1_r. cbn [shift].
  rewrite <- app_assoc. cbn [app]. rewrite get_mid.
  apply Forall_app in F. destruct F as [_ F]. inversion F as [|? ? Q _]; subst. apply Nat.leb_le in Q. now rewrite Q.
Qed.
Lemma shift_room d hi : forall lo y post, lo_ok d lo -> hi_ok d hi ->
  exists z, shift (lo ++ hi ++ y :: post) d (List.length lo + List.length hi) = Some (lo ++ z :: hi ++ post, List.length lo).
Proof.
  induction hi as [|e hi IH] using rev_ind; intros lo y post FL FH.
  - exists y. cbn [app List.length]. rewrite Nat.add_0_r. now apply shift_lo.
  - apply Forall_app in FH. destruct FH as [FH FE]. inversion FE as [|? ? QE _]; subst.
    rewrite app_length. cbn [List.length]. rewrite Nat.add_1_r, Nat.add_succ_r. cbn [shift].
    rewrite <- !app_assoc. cbn [app]. rewrite <- app_length, app_assoc, get_mid.
    replace (snd e <=? d) with false by (symmetry; apply Nat.leb_gt; lia).
    replace (S (List.length (lo ++ hi)) <? List.length ((lo ++ hi) ++ e :: y :: post)) with true
      by (symmetry; apply Nat.ltb_lt; rewrite !app_length; cbn; lia).
    assert (ES : set ((lo ++ hi) ++ e :: y :: post) (S (List.length (lo ++ hi))) e = Some ((lo ++ hi) ++ e :: e :: post)).
    { change ((lo ++ hi) ++ e :: y :: post) with ((lo ++ hi) ++ [e] ++ y :: post).
      rewrite app_assoc. replace (S (List.length (lo ++ hi))) with (List.length ((lo ++ hi) ++ [e])) by (rewrite app_length; cbn; lia).
      rewrite set_mid. now rewrite <- app_assoc. }
    rewrite ES, app_length, <- app_assoc. destruct (IH lo e (e :: post) FL FH) as (z&H). exists z. exact H.
Qed.
Lemma shift_full d hi e : forall lo, lo_ok d lo -> hi_ok d (hi ++ [e]) ->
  exists z, shift (lo ++ hi ++ [e]) d (List.length (lo ++ hi ++ [e])) = Some (lo ++ z :: hi, List.length lo).
Proof.
  intros lo FL FH. pose proof FH as FH'. apply Forall_app in FH'. destruct FH' as [FH1 FE]. inversion FE as [|? ? QE _]; subst.
  replace (List.length (lo ++ hi ++ [e])) with (S (List.length (lo ++ hi))) by (rewrite !app_length; cbn; lia). cbn [shift].
  replace (get (lo ++ hi ++ [e]) (List.length (lo ++ hi))) with (Some e) by (rewrite app_assoc; symmetry; apply get_mid). replace (snd e <=? d) with false by (symmetry; apply Nat.leb_gt; lia).
  replace (S (List.length (lo ++ hi)) <? List.length (lo ++ hi ++ [e])) with false
    by (symmetry; apply Nat.ltb_ge; rewrite !app_length; cbn; lia).
  rewrite app_length. destruct (shift_room d hi lo e [] FL FH1) as (z&H). exists z. rewrite app_nil_r in H. exact H.
Qed.

Definition le2 (a b : E) : Prop := snd a <= snd b.
Definition sorted (l : list E) : Prop := StronglySorted le2 l.

Lemma split_at d l : sorted l -> exists lo hi, l = lo ++ hi /\ lo_ok d lo /\ hi_ok d hi.
Proof.
  induction 1 as [|e l S IH F]; [exists [], []; repeat split; constructor|].
  destruct (le_lt_dec (snd e) d) as [Q|Q].
  - destruct IH as (lo&hi&->&F1&F2). exists (e :: lo), hi. repeat split; auto. now constructor.
  - exists [], (e :: l). repeat split; [constructor|]. constructor; auto. eapply Forall_impl; [|exact F]. unfold le2. intros; lia.
Qed.

Lemma sorted_app l1 l2 : sorted (l1 ++ l2) <-> sorted l1 /\ sorted l2 /\ (forall a b, In a l1 -> In b l2 -> snd a <= snd b).
Proof.
  unfold sorted. induction l1 as [|e l1 IH]; cbn [app].
  - split; [intros H; repeat split; auto; [constructor|intros a b []]|tauto].
  - split.
    + intros H. inversion H as [|? ? H1 H2]; subst. apply IH in H1. destruct H1 as (H1&H3&H4). apply Forall_app in H2. destruct H2 as [H2 H5].
      repeat split; auto; [now constructor|]. intros a b [<-|HA] HB; auto. rewrite Forall_forall in H5. now apply H5.
    + intros (H1&H2&H3). inversion H1; subst. constructor.
      * apply IH. repeat split; auto. intros a b HA HB. apply H3; auto. now right.
      * apply Forall_app. split; auto. apply Forall_forall. intros b HB. apply H3; auto. now left.
Qed.
Lemma sorted_insert lo hi x d : sorted (lo ++ hi) -> lo_ok d lo -> hi_ok d hi -> sorted (lo ++ (x, d) :: hi).
Proof.
  intros S FL FH. apply sorted_app in S. destruct S as (S1&S2&S3). apply sorted_app. split; auto.
  unfold lo_ok, hi_ok in *. rewrite Forall_forall in *. split.
  - constructor; auto. apply Forall_forall. intros b HB. apply FH in HB. unfold le2. cbn. lia.
  - intros a b HA [<-|HB]; [apply FL in HA; cbn; lia|auto].
Qed.

(* state after offering the candidates [es] *)
Record inv (cap : nat) (es : list E) (st : list E * nat) (dropped : list E) : Prop := {
  i_perm : Permutation es (fst st ++ dropped);
  i_sorted : sorted (fst st);
  i_len : List.length (fst st) <= cap;
  i_full : dropped <> [] -> List.length (fst st) = cap;
  i_worst : forall l e, fst st = l ++ [e] -> snd st = snd e;
  i_best : forall a b, In a (fst st) -> In b dropped -> snd a <= snd b;
}.

Lemma last_case (l : list E) : l = [] \/ exists l' e, l = l' ++ [e].
Proof. destruct l as [|a l] using rev_ind; eauto. Qed.

Lemma offer_inv cap es st dropped x d : 0 < cap -> inv cap es st dropped ->
  exists st' dropped', offer cap st x d = Some st' /\ inv cap (es ++ [(x, d)]) st' dropped'.
Proof.
  intros HC I. destruct st as [nodes worst]. unfold offer. destruct I as [IP IS IL IF IW IB]. cbn [fst snd] in *.
  destruct (last_case nodes) as [->|(nl&ne&EN)].
  { exists ([(x, d)], d), dropped. split; auto.
    assert (dropped = []) as -> by (destruct dropped; auto; specialize (IF ltac:(discriminate)); cbn in IF; lia).
    cbn in IP. apply Permutation_sym, Permutation_nil in IP. subst es. split; cbn [fst snd app].
    - constructor. constructor.
    - repeat constructor.
    - cbn. lia.
    - congruence.
    - intros l e EQ. destruct l as [|? [|]]; cbn in EQ; injection EQ; intros; subst; auto; discriminate.
    - intros a b _ []. }
  assert (MN : forall (T : Type) (u v : T), match nodes with [] => u | _ :: _ => v end = v) by (intros; destruct nodes; [destruct nl; discriminate|auto]).
  rewrite MN. clear MN. pose proof (IW nl ne EN) as EW.
  destruct (Nat.leb_spec worst d) as [GE|LT].
  - destruct (Nat.ltb_spec (List.length nodes) cap) as [ROOM|FULL].
    + exists (nodes ++ [(x, d)], d), dropped. split; auto.
      assert (dropped = []) as -> by (destruct dropped; auto; specialize (IF ltac:(discriminate)); lia).
      rewrite app_nil_r in IP. split; cbn [fst snd].
      * rewrite app_nil_r. now apply Permutation_app_tail.
      * apply sorted_app. split; auto. split; [repeat constructor|]. intros a b HA [<-|[]]. cbn.
        subst nodes. apply sorted_app in IS. destruct IS as (_&_&H3). apply in_app_iff in HA. destruct HA as [HA|[<-|[]]]; [|lia].
        specialize (H3 a ne HA ltac:(now left)). lia.
      * rewrite app_length. cbn. lia.
      * congruence.
      * intros l e EQ. apply app_inj_tail in EQ. destruct EQ as [_ <-]. reflexivity.
      * intros a b _ [].
    + exists (nodes, worst), (dropped ++ [(x, d)]). split; auto. split; cbn [fst snd]; auto.
      * rewrite app_assoc. now apply Permutation_app_tail.
      * intros _. lia.
      * intros a b HA HB. apply in_app_iff in HB. destruct HB as [HB|[<-|[]]]; auto. cbn.
        subst nodes. apply sorted_app in IS. destruct IS as (_&_&H3). apply in_app_iff in HA. destruct HA as [HA|[<-|[]]]; [|lia].
        specialize (H3 a ne HA ltac:(now left)). lia.
  - destruct (split_at d nodes IS) as (lo&hi&EQ&FL&FH).
    assert (TOP : forall l e, (match rev (l ++ [e]) with [] => 0 | (_, dd) :: _ => dd end) = @snd A nat e).
    { intros l e. rewrite rev_app_distr. cbn. now destruct e. }
    destruct (Nat.ltb_spec (List.length nodes) cap) as [ROOM|FULL].
    + assert (dropped = []) as -> by (destruct dropped; auto; specialize (IF ltac:(discriminate)); lia).
      destruct (shift_room d hi lo (x, d) [] FL FH) as (z&HS).
      rewrite EQ. rewrite <- app_assoc. rewrite app_length. cbn [app] in *. rewrite HS, app_nil_r, set_mid.
      eexists. exists []. split; [reflexivity|]. split; cbn [fst snd].
      * rewrite app_nil_r in *. rewrite IP, EQ, <- app_assoc. apply Permutation_app_head. apply Permutation_sym. apply Permutation_cons_append.
      * apply sorted_insert; auto. now rewrite <- EQ.
      * rewrite app_length. cbn. rewrite EQ, app_length in ROOM. lia.
      * congruence.
      * intros l e ->. apply TOP.
      * intros a b _ [].
    + assert (NH : hi <> []).
      { intros ->. rewrite app_nil_r in EQ. subst lo. subst nodes. apply Forall_app in FL. destruct FL as [_ FL]. inversion FL; subst. lia. }
      clear EN EW IW. destruct (last_case hi) as [|(hi'&he&->)]; [contradiction|].
      destruct (shift_full d hi' he lo FL FH) as (z&HS). rewrite EQ, HS, set_mid.
      eexists. exists (he :: dropped). split; [reflexivity|].
      assert (FH' := FH). apply Forall_app in FH'. destruct FH' as [FH1 FH2]. inversion FH2 as [|? ? QE _]; subst.
      assert (SS : sorted (lo ++ hi')).
      { rewrite app_assoc in IS. apply sorted_app in IS. tauto. }
      split; cbn [fst snd].
      * rewrite IP. rewrite <- !app_assoc. cbn [app]. apply Permutation_app_head.
        apply Permutation_sym. etransitivity; [apply Permutation_cons_append|]. cbn [app]. rewrite <- app_assoc. cbn [app]. apply Permutation_refl.
      * now apply sorted_insert.
      * rewrite app_length in *. cbn [List.length]. rewrite app_length in IL. cbn in IL. lia.
      * intros _. rewrite app_length in *. cbn [List.length]. rewrite app_length in *. cbn in *. lia.
      * intros l e ->. apply TOP.
      * intros a b HA HB. assert (HE : snd a <= snd he).
        { apply in_app_iff in HA. destruct HA as [HA|[<-|HA]].
          - apply sorted_app in IS. destruct IS as (_&_&H3). apply H3; auto. apply in_app_iff. right. now left.
          - cbn. lia.
          - rewrite app_assoc in IS. apply sorted_app in IS. destruct IS as (_&_&H3). apply H3; [|now left]. apply in_app_iff. now right. }
        destruct HB as [<-|HB]; auto. etransitivity; [exact HE|]. apply IB; auto. apply in_app_iff. right. apply in_app_iff. right. now left.
Qed.
End N.

Definition cands (full : str) (max : N) (names : list str) : list (str * nat) :=
  map (fun n => (n, distance lower_char full n)) (filter (fun n => eligible full n max (distance lower_char full n)) names).

Lemma loop_inv full max cap names : 0 < cap -> forall st es dropped, inv cap es st dropped ->
  exists st' dropped', nearest_loop full max cap names st = Some st' /\ inv cap (es ++ cands full max names) st' dropped'.
Proof.
  intros HC. induction names as [|n names IH]; intros st es dropped I.
  - exists st, dropped. cbn. rewrite app_nil_r. auto.
  - cbn [nearest_loop]. unfold cands. cbn [filter]. destruct (eligible full n max _) eqn:EE.
    + destruct (offer_inv cap es st dropped n (distance lower_char full n) HC I) as (st'&dr'&EO&I'). rewrite EO.
      destruct (IH st' _ dr' I') as (st2&dr2&E2&I2). exists st2, dr2. split; auto.
      cbn [map]. rewrite <- app_assoc in I2. exact I2.
    + apply IH with (1 := I).
Qed.
Lemma inv0 cap w : inv (A := str) cap [] ([], w) [].
Proof. split; cbn; auto; try congruence; [constructor|lia|intros l e H; destruct l; discriminate|intros a b []]. Qed.

Lemma one_edit_len {A} (a b : list A) : one_edit a b -> List.length a <= S (List.length b) /\ List.length b <= S (List.length a).
Proof. destruct 1; rewrite !app_length; cbn; lia. Qed.
Lemma edits_len {A} n (a b : list A) : edits n a b -> List.length a <= n + List.length b /\ List.length b <= n + List.length a.
Proof. induction 1 as [|n a b c H1 H2 [I1 I2]]; [lia|]. apply one_edit_len in H1. lia. Qed.

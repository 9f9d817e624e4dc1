(** The profile. *)

From Coq Require Import List Bool Arith ZArith Lia.
From Verif Require Import M_Path M_Conns S_Conns P_Conns.
Import ListNotations.

Lemma set_size_length : forall n l, length (set_size n l) = n.
Proof. intros n l. unfold set_size. rewrite app_length, firstn_length, repeat_length. lia. Qed.

Lemma nth_set_size : forall n (l : list (str * nat)) i, length l <= n -> i < n ->
  nth_error (set_size n l) i = Some (nth i l ([], 0)).
Proof.
  intros n l i L Hi. unfold set_size. rewrite firstn_all2 by auto.
  destruct (Nat.lt_ge_cases i (length l)) as [H|H].
  - rewrite nth_error_app1 by auto. now apply nth_error_nth'.
  - rewrite nth_error_app2, (nth_overflow l) by auto.
    assert (X : forall m j, j < m -> nth_error (repeat (@nil _ : str, 0) m) j = Some ([], 0)).
    { induction m as [|m IH]; intros [|j] Hj; cbn [repeat nth_error]; auto; try lia. apply IH; lia. }
    apply X. lia.
Qed.

(** Recording one job. *)
Lemma nth_record : forall id name th tg p i,
  nth_error (infos (record_remote id name th tg p)) i =
  if i =? id then Some (if length (infos p) <=? id then (name, th)
                        else (fst (nth id (infos p) ([], 0)), Nat.max (snd (nth id (infos p) ([], 0))) th))
  else if i <? length (infos p) then Some (nth i (infos p) ([], 0))
  else if i <? id then Some ([], 0) else None.
Proof.
  intros id name th tg p i. unfold record_remote; cbn [infos].
  destruct (Nat.leb_spec (length (infos p)) id) as [H|H].
  - rewrite nth_upd. destruct (Nat.eqb_spec id i) as [<-|Ne].
    + rewrite Nat.eqb_refl. rewrite nth_set_size by lia. reflexivity.
    + destruct (Nat.eqb_spec i id) as [E|E]; try congruence.
      destruct (Nat.ltb_spec i (length (infos p))) as [L|L].
      * rewrite nth_set_size by lia. reflexivity.
      * destruct (Nat.ltb_spec i id).
        -- rewrite nth_set_size by lia. now rewrite nth_overflow.
        -- apply nth_error_None. rewrite set_size_length. lia.
  - rewrite nth_upd. destruct (Nat.eqb_spec id i) as [<-|Ne].
    + rewrite Nat.eqb_refl. pose proof (nth_error_nth' (infos p) ((@nil _ : str), 0) H) as X. rewrite X. reflexivity.
    + destruct (Nat.eqb_spec i id) as [E|E]; try congruence.
      destruct (Nat.ltb_spec i (length (infos p))) as [L|L].
      * now apply nth_error_nth'.
      * destruct (Nat.ltb_spec i id); [lia|]. now apply nth_error_None.
Qed.

Lemma profile_snoc : forall ids l rs r,
  profile_of ids l (rs ++ [r]) = record_job ids l (profile_of ids l rs) r.
Proof. intros. unfold profile_of. now rewrite fold_left_app. Qed.

Lemma events_all : forall ids l rs,
  events (profile_of ids l rs) = map (fun r => (ids (by_worker r), on_thread r, of_target r)) rs.
Proof.
  intros ids l rs. induction rs as [|r rs IH] using rev_ind; [reflexivity|].
  rewrite profile_snoc, map_app. unfold record_job, record_remote; cbn [events]. now rewrite IH.
Qed.

Lemma threads : forall ids l rs id th tg, In (id, th, tg) (events (profile_of ids l rs)) ->
  exists name m, nth_error (infos (profile_of ids l rs)) id = Some (name, m) /\ th <= m.
Proof.
  intros ids l rs. induction rs as [|r rs IH] using rev_ind; intros id th tg; [intros []|].
  rewrite profile_snoc. unfold record_job. rewrite nth_record.
  unfold record_remote; cbn [events]. rewrite in_app_iff; cbn [In].
  set (p := profile_of ids l rs) in *. intros [H|[H|[]]].
  - destruct (IH _ _ _ H) as (name & m & N & Le).
    assert (L : id < length (infos p)) by (apply nth_error_Some; congruence).
    destruct (Nat.eqb_spec id (ids (by_worker r))) as [<-|Ne].
    + destruct (Nat.leb_spec (length (infos p)) id); [lia|].
      rewrite (nth_error_nth _ _ _ N). cbn [fst snd]. do 2 eexists; split; [reflexivity|]. lia.
    + destruct (Nat.ltb_spec id (length (infos p))); [|lia]. rewrite (nth_error_nth _ _ _ N). eauto.
  - injection H as <- <- <-. rewrite Nat.eqb_refl.
    destruct (length (infos p) <=? ids (by_worker r)); do 2 eexists; (split; [reflexivity|]); lia.
Qed.

(** All jobs under one number: the name is that of the first. *)
Lemma one_name : forall k l r rs,
  length (infos (profile_of (fun _ => k) l (r :: rs))) = S k /\
  heading (profile_of (fun _ => k) l (r :: rs)) k = Some (nth (by_worker r) l []) /\
  forall i, i < k -> heading (profile_of (fun _ => k) l (r :: rs)) i = Some [].
Proof.
  intros k l r rs. unfold heading. induction rs as [|q rs IH] using rev_ind.
  - unfold profile_of; cbn [fold_left]. unfold record_job. repeat split.
    + unfold record_remote; cbn [infos length]. destruct (Nat.leb_spec 0 k); [|lia]. now rewrite upd_length, set_size_length.
    + rewrite nth_record, Nat.eqb_refl. reflexivity.
    + intros i Hi. rewrite nth_record. destruct (Nat.eqb_spec i k); [lia|]. cbn [infos length].
      destruct (Nat.ltb_spec i 0); [lia|]. destruct (Nat.ltb_spec i k); [reflexivity | lia].
  - change (r :: rs ++ [q]) with ((r :: rs) ++ [q]). rewrite profile_snoc.
    set (p := profile_of (fun _ => k) l (r :: rs)) in *. destruct IH as (L & H & B). unfold record_job. repeat split.
    + unfold record_remote; cbn [infos]. destruct (Nat.leb_spec (length (infos p)) k); [lia|]. now rewrite upd_length.
    + rewrite nth_record, Nat.eqb_refl. destruct (Nat.leb_spec (length (infos p)) k); [lia|]. cbn [option_map fst].
      destruct (nth_error (infos p) k) as [x|] eqn:N; [|discriminate]. now rewrite (nth_error_nth _ _ _ N).
    + intros i Hi. specialize (B i Hi). rewrite nth_record. destruct (Nat.eqb_spec i k); [lia|].
      destruct (Nat.ltb_spec i (length (infos p))); [|lia].
      destruct (nth_error (infos p) i) as [x|] eqn:N; [|discriminate]. now rewrite (nth_error_nth _ _ _ N).
Qed.

Lemma named : forall ids l rs, (forall v w, ids v = ids w -> v = w) -> in_order ids rs ->
  (forall r, In r rs -> heading (profile_of ids l rs) (ids (by_worker r)) = Some (nth (by_worker r) l [])) /\
  (forall i, i < length (infos (profile_of ids l rs)) <-> exists r, In r rs /\ i <= ids (by_worker r)).
Proof.
  intros ids l rs INJ. unfold heading. induction rs as [|q rs IH] using rev_ind; intros O.
  - split; [intros r []|]. intros i; cbn. split; [lia | intros (r & [] & _)].
  - destruct IH as [IN IL].
    { intros a r b ->. apply (O a r (b ++ [q])). now rewrite <- app_assoc. }
    rewrite profile_snoc. set (p := profile_of ids l rs) in *. unfold record_job.
    assert (LEN : length (infos (record_remote (ids (by_worker q)) (nth (by_worker q) l []) (on_thread q) (of_target q) p)) =
                  Nat.max (length (infos p)) (S (ids (by_worker q)))).
    { unfold record_remote; cbn [infos]. destruct (Nat.leb_spec (length (infos p)) (ids (by_worker q)));
      rewrite upd_length, ?set_size_length; lia. }
    split.
    + intros r. rewrite in_app_iff; cbn [In]. rewrite nth_record. intros HR.
      assert (OLD : In r rs -> ids (by_worker r) < length (infos p)) by (intros R; apply IL; eauto).
      destruct (Nat.eqb_spec (ids (by_worker r)) (ids (by_worker q))) as [E|Ne].
      * assert (EW : by_worker r = by_worker q) by (now apply INJ). rewrite <- EW.
        destruct (Nat.leb_spec (length (infos p)) (ids (by_worker r))) as [H|H]; [reflexivity|].
        cbn [option_map fst].
        destruct (O rs q []) as [(q' & Q1 & Q2)|SM]; auto.
        -- specialize (IN _ Q1). rewrite Q2, <- EW in IN.
           destruct (nth_error (infos p) (ids (by_worker r))) as [x|] eqn:N; [|discriminate].
           now rewrite (nth_error_nth _ _ _ N).
        -- apply IL in H as (q' & Q1 & Q2). apply SM in Q1. lia.
      * destruct HR as [R|[->|[]]]; [|congruence].
        destruct (Nat.ltb_spec (ids (by_worker r)) (length (infos p))) as [H|H]; [|apply OLD in R; lia].
        specialize (IN _ R). destruct (nth_error (infos p) (ids (by_worker r))) as [x|] eqn:N; [|discriminate].
        now rewrite (nth_error_nth _ _ _ N).
    + intros i. rewrite LEN. split.
      * intros Hi. destruct (Nat.lt_ge_cases i (length (infos p))) as [H|H].
        -- apply IL in H as (r & R & Le). exists r. rewrite in_app_iff. auto.
        -- exists q. rewrite in_app_iff. split; [right; now left | lia].
      * intros (r & R & Le). apply in_app_or in R as [R|[->|[]]]; [|lia].
        assert (i < length (infos p)) by (apply IL; eauto). lia.
Qed.

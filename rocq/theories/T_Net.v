(** C23: network messages arrive whole and in order.  C53: a connection closed by the peer is noticed. *)
From Coq Require Import List Arith Bool NArith Lia.
From Verif Require Import M_Bytes M_Net S_Net P_Net.
Import ListNotations.
Local Open Scope N_scope.

Lemma to_come_last c ps ms m : to_come c ps (ms ++ [m]) -> ms <> [] -> exists p ps', ps = p :: ps' ++ packets m.
Proof.
  intros T N. destruct ms as [|m0 ms]; [congruence|]. cbn [app] in T. unfold to_come in T. destruct c as [b|].
  - destruct T as (pl & ms' & E & ->). injection E as -> <-. exists pl, (flat_map packets ms). f_equal. rewrite flat_map_app. cbn [flat_map]. now rewrite app_nil_r.
  - subst ps. cbn [flat_map]. unfold packets at 1. cbn [app]. eexists. eexists. f_equal. rewrite flat_map_app. cbn [flat_map]. rewrite app_nil_r, app_assoc. reflexivity.
Qed.
Lemma partial_less p c x q ps : partial p c -> c ++ x = frames (q :: ps) -> blen q < 4294967296 -> blen c < blen (frame q).
Proof.
  intros P E F. rewrite blen_frame. destruct p as [mem t|size buf dest rem]; cbn [partial] in P.
  - destruct P as (A & B & ->). rewrite blen_firstn. lia.
  - destruct P as (h & A & B & C & D & G & ->). rewrite frames_cons in E. unfold frame in E. rewrite <- !app_assoc in E.
    apply app_eq_len in E; [|rewrite le_bytes_len; unfold blen in *; lia]. destruct E as [E _]. rewrite E, le_value_u32 in B by exact F.
    rewrite blen_app, blen_firstn. lia.
Qed.

(** Messages are sent one after the other; the operating system takes the bytes as it pleases; any part of what it took has
    arrived; it hands the bytes out as it pleases.  Then exactly the messages whose sending succeeded are received, in order, each
    with its payload: never another, never part of one, and all of them once the bytes are there. *)
Theorem C23_in_order : forall windows known calls wire results stream evs,
  Forall (good_message windows known) (map fst calls) ->
  run_sends false calls = (wire, results) -> prefix stream wire ->
  exists n later r rest, results = repeat Sent n ++ later /\ ~ In Sent later /\
    run_reader windows known new_reader stream evs = Some (r, rest) /\
    prefix (got r) (firstn n (map fst calls)) /\
    (stream = wire -> rest = [] -> open r = true -> got r = firstn n (map fst calls)).
Proof.
  intros windows known calls wire results stream evs G E [x PW].
  destruct (run_sends_ok _ _ _ _ _ G E) as (n & later & R1 & R2 & R3). exists n, later.
  assert (GS : forall l, incl l (map fst calls) -> Forall (fun q => blen q < 4294967296) (flat_map packets l)).
  { intros l I. apply Forall_forall. intros q Hq. apply in_flat_map in Hq. destruct Hq as (m & A & B). apply I in A.
    rewrite Forall_forall in G. destruct (good_sizes _ _ _ (G m A)) as [S1 S2]. unfold packets in B. destruct B as [<-|B]; [lia|].
    destruct (payload m) as [pl|]; [|destruct B]. destruct B as [<-|[]]. lia. }
  assert (START : forall all miss, stream ++ miss = all_frames all -> (miss <> [] -> all <> []) -> rinv windows known all new_reader stream miss).
  { intros all miss H1 H2. exists all. split; [reflexivity|split; [exact H2|]]. intros _. exists (flat_map packets all), [].
    split; [reflexivity|split; [exact partial_fresh|exact H1]]. }
  assert (TCF : forall c ps ms l, to_come c ps ms -> incl ms l -> incl l (map fst calls) -> Forall (fun q => blen q < 4294967296) ps).
  { intros c ps ms l T I1 I2. unfold to_come in T. assert (X := GS ms (fun a b => I2 a (I1 a b))). destruct c as [b|].
    - destruct T as (pl & ms' & -> & ->). cbn [flat_map packets body payload app] in X. now inversion X.
    - now subst. }
  destruct R3 as [[-> ->]|(a & m & b & t & t' & EC & LA & T1 & T2 & ->)].
  - destruct (rinv_run windows known (map fst calls) G evs new_reader stream x) as (r & rest & RR & ms & I1 & I2 & I3).
    { apply START; [now symmetry|]. intros H N. apply H. rewrite N in PW. cbn in PW. symmetry in PW. now apply app_eq_nil in PW. }
    exists r, rest. split; [exact R1|split; [exact R2|split; [exact RR|]]]. rewrite firstn_all2 by (rewrite map_length; lia). split.
    + exists ms. now symmetry.
    + intros -> -> O. assert (x = []) as -> by (apply (f_equal (@List.length N)) in PW; rewrite app_length in PW; destruct x; [reflexivity|cbn in PW; lia]).
      destruct (I3 O) as (ps & c & T & P & ST). rewrite !app_nil_r in ST.
      assert (IM : incl ms (map fst calls)) by (rewrite <- I1; intros y Y; apply in_or_app; now right).
      assert (ps = []) as -> by (eapply partial_short; eauto; eapply TCF; eauto; apply incl_refl).
      assert (ms = []) as -> by (unfold to_come in T; destruct (cur r); [destruct T as (? & ? & ? & ?); discriminate|]; destruct ms as [|y ms]; [reflexivity|discriminate]).
      now rewrite app_nil_r in I1.
  - assert (EA : firstn n (map fst calls) = a) by (rewrite EC, <- LA, firstn_app, Nat.sub_diag, firstn_all2 by lia; cbn [firstn]; apply app_nil_r).
    assert (IA : incl (a ++ [m]) (map fst calls)) by (rewrite EC; intros y Y; apply in_app_or in Y; apply in_or_app; destruct Y as [Y|[<-|[]]]; [now left|right; now left]).
    assert (G' : Forall (good_message windows known) (a ++ [m])) by (rewrite Forall_forall in *; auto).
    assert (AF : all_frames (a ++ [m]) = all_frames a ++ t ++ t').
    { unfold all_frames. rewrite flat_map_app, frames_app. cbn [flat_map]. now rewrite app_nil_r, T2. }
    destruct (rinv_run windows known (a ++ [m]) G' evs new_reader stream (x ++ t')) as (r & rest & RR & ms & I1 & I2 & I3).
    { apply START; [rewrite AF, !app_assoc, <- PW, <- !app_assoc; reflexivity|]. intros _ N. destruct a; discriminate. }
    exists r, rest. split; [exact R1|split; [exact R2|split; [exact RR|]]]. rewrite EA.
    assert (NM : ms <> []) by (apply I2; intros X; apply app_eq_nil in X; tauto).
    destruct (exists_last NM) as (ms1 & y & ->). rewrite app_assoc in I1. apply app_inj_tail in I1. destruct I1 as [I1 ->]. split.
    + exists ms1. now symmetry.
    + intros ES -> O. assert (x = []) as -> by (rewrite ES in PW; apply (f_equal (@List.length N)) in PW; rewrite !app_length in PW; destruct x; [reflexivity|cbn in PW; lia]).
      destruct (I3 O) as (ps & c & T & P & ST). cbn [app] in ST.
      destruct ms1 as [|m1 ms1]; [now rewrite app_nil_r in I1|]. exfalso.
      destruct (to_come_last _ _ _ _ T) as (p & ps' & ->); [discriminate|].
      assert (FP : Forall (fun q => blen q < 4294967296) (p :: ps' ++ packets m)).
      { eapply TCF; [exact T| |exact IA]. rewrite <- I1. intros z Z. apply in_app_or in Z. apply in_or_app. destruct Z as [Z|[<-|[]]]; [left; apply in_or_app; now right|right; now left]. }
      inversion FP as [|? ? Fp _]; subst. assert (LT := partial_less _ _ _ _ _ P ST Fp).
      apply (f_equal blen) in ST. rewrite blen_app, frames_cons, frames_app, T2, !blen_app in ST. lia.
Qed.
Print Assumptions C23_in_order.

(** The bound on sizes is needed: a message that fills 32 bits exactly is reported as sent although nothing is, and the payload
    of a message with 4 GiB of it is dropped. *)
Theorem C23_four_gigabytes_refuted :
  (exists m : message, run_sends false [(m, [])] = ([], [Sent])) /\
  (exists (b pl : bytes), pl <> [] /\ run_sends false [({| body := b; payload := Some pl |}, [Took 100])] =
     (all_frames [{| body := b; payload := Some [] |}], [Sent])).
Proof.
  assert (HB : exists big, N.of_nat big = 4294967284) by (eexists; apply N2Nat.id). destruct HB as (big & HB).
  assert (HC : exists big, N.of_nat big = 4294967296) by (eexists; apply N2Nat.id). destruct HC as (huge & HC). split.
  - exists {| body := [6; 4; 1; 0]; payload := Some (repeat 0 big) |}. cbn [run_sends]. unfold send_buffers. cbn [body payload].
    replace (blen (repeat 0 big)) with 4294967284 by (unfold blen; now rewrite repeat_length).
    remember (repeat 0 big) as l. clear. change (u32 4294967284) with 4294967284.
    replace (total_bytes _) with 0 by reflexivity. reflexivity.
  - exists [6; 4; 1; 0], (repeat 0 huge). split.
    + intros X. apply (f_equal blen) in X. unfold blen in X. rewrite repeat_length, HC in X. discriminate.
    + cbn [run_sends]. unfold send_buffers. cbn [body payload].
      replace (blen (repeat 0 huge)) with 4294967296 by (unfold blen; now rewrite repeat_length).
      remember (repeat 0 huge) as l. clear. change (u32 4294967296) with 0. vm_compute. reflexivity.
Qed.
Print Assumptions C23_four_gigabytes_refuted.

(** A status message and a job with payload, sent in pieces and read in other pieces. *)
Definition m_status : message := {| body := [2; 8; 0; 0; 1; 0; 0; 0]; payload := None |}.
Definition m_job : message := {| body := [5; 16; 1; 0; 0; 0; 0; 0; 9; 0; 0; 0; 0; 0; 0; 0]; payload := Some [10; 11; 12] |}.
Example C23_case :
  Forall (good_message true server_types) [m_status; m_job] /\
  exists wire r, run_sends false [(m_status, [Took 3; Blocked; Took 6; Took 100]); (m_job, [Took 19; Took 2; Took 1000])] = (wire, [Sent; Sent]) /\
    run_reader true server_types new_reader wire [Arrive 1; NotYet; Arrive 2; Arrive 9; Arrive 3; Arrive 100; Arrive 4; Arrive 15; Arrive 1; Arrive 2; Arrive 2; Arrive 1; Arrive 2] = Some (r, []) /\
    got r = [m_status; m_job] /\ open r = true.
Proof.
  split.
  - constructor; [|constructor; [|constructor]]; (split; [cbn; tauto|split; [cbn; lia|split; [reflexivity|split; [reflexivity|cbn; lia]]]]).
  - eexists. eexists. split; [vm_compute; reflexivity|split; [vm_compute; reflexivity|split; reflexivity]].
Qed.
(** A connection that times out in the middle of the second message. *)
Example C23_failed_case :
  exists wire r, run_sends false [(m_status, [Took 100]); (m_job, [Took 22; BlockedTimeout]); (m_status, [Took 100])] = (wire, [Sent; NotSent; NotSent]) /\
    run_reader false server_types new_reader wire (repeat (Arrive 7) 20) = Some (r, []) /\ got r = [m_status] /\ open r = true.
Proof. eexists. eexists. split; [vm_compute; reflexivity|split; [vm_compute; reflexivity|split; reflexivity]]. Qed.

(** * C53 *)
(** On a connection whose thread has not had to wait within a message, the peer closing the connection ends it. *)
Theorem C53_close_noticed_partial : forall windows known evs r stream r' stream',
  stale r = false -> ~ In NotYet evs -> run_reader windows known r stream (evs ++ [PeerClosed]) = Some (r', stream') -> open r' = false.
Proof.
  intros windows known evs. induction evs as [|e evs IH]; intros r stream r' stream' S N H; cbn [app run_reader] in H.
  - unfold recv_step in H. destruct (open r) eqn:O.
    + rewrite S in H. injection H as <- <-. reflexivity.
    + injection H as <- <-. exact O.
  - destruct (recv_step windows known r stream e) as [[r1 s1]|] eqn:E; [|discriminate].
    apply (IH r1 s1 r' stream'); [|intros X; apply N; now right|exact H].
    assert (OR : forall d r2, on_receive known r d = Some r2 -> stale r2 = stale r).
    { clear. intros d r2. unfold on_receive. destruct (cur r) as [b|].
      - intros [= <-]. now destruct (nmember (nth 0 b 0) known).
      - destruct (nth_error d 2) as [fl|]; [|discriminate]. destruct (fl =? 0); intros [= <-]; [|reflexivity]. now destruct (nmember (nth 0 d 0) known). }
    unfold recv_step in E. destruct (open r); [|injection E as <- <-; exact S]. destruct e as [n| | | | |].
    + destruct (recv_max windows <? _); [injection E as <- <-; exact S|]. destruct (_ =? 0); [injection E as <- <-; exact S|].
      destruct (ph r) as [mem t|size buf dest rem].
      * destruct (t - _ =? 0); [|injection E as <- <-; exact S]. destruct (le_value _ =? 0); [|injection E as <- <-; exact S].
        destruct (on_receive known r []) as [r2|] eqn:X; cbn [option_map] in E; [|discriminate]. injection E as <- _. rewrite (OR _ _ X). exact S.
      * destruct (rem - _ =? 0); [|injection E as <- <-; exact S].
        destruct (on_receive known r _) as [r2|] eqn:X; cbn [option_map] in E; [|discriminate]. injection E as <- _. rewrite (OR _ _ X). exact S.
    + exfalso. apply N. now left.
    + injection E as <- <-. exact S.
    + rewrite S in E. injection E as <- <-. exact S.
    + injection E as <- <-. exact S.
    + injection E as <- <-. reflexivity.
Qed.
Print Assumptions C53_close_noticed_partial.

(** After a wait within an earlier message, it does not: recv reporting the close leaves the old error code, which is taken to mean
    that data is still to come, for ever. *)
Theorem C53_close_not_noticed_refuted : exists evs stream r, run_reader false server_types new_reader stream evs = Some (r, []) /\
  got r = [m_status] /\ open r = true /\ forall n, run_reader false server_types r [] (repeat PeerClosed n) = Some (r, []).
Proof.
  exists [Arrive 2; NotYet; Arrive 2; Arrive 8], (all_frames [m_status]). eexists. split; [vm_compute; reflexivity|].
  split; [reflexivity|split; [reflexivity|]]. induction n as [|n IH]; [reflexivity|]. cbn [repeat run_reader recv_step open stale]. exact IH.
Qed.
Print Assumptions C53_close_not_noticed_refuted.

Example C53_case : exists r, run_reader false server_types new_reader (all_frames [m_status; m_job]) [Arrive 4; Arrive 8; PeerClosed; Arrive 4] = Some (r, all_frames [m_job]) /\
  got r = [m_status] /\ open r = false.
Proof. eexists. split; [vm_compute; reflexivity|split; reflexivity]. Qed.

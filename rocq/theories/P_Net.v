From Coq Require Import List Arith Bool NArith Lia.
From Verif Require Import M_Bytes M_Net S_Net.
Import ListNotations.
Local Open Scope N_scope.

Lemma blen_nil : blen [] = 0. Proof. reflexivity. Qed.
Lemma blen_cons x l : blen (x :: l) = 1 + blen l. Proof. unfold blen. cbn [List.length]. lia. Qed.
Lemma blen_firstn n l : blen (firstn (N.to_nat n) l) = N.min n (blen l).
Proof. unfold blen. rewrite firstn_length. lia. Qed.
Lemma blen_skipn n l : blen (skipn (N.to_nat n) l) = blen l - n.
Proof. unfold blen. rewrite skipn_length. lia. Qed.
Lemma blen_le4 x : blen (le_bytes 4 x) = 4. Proof. reflexivity. Qed.
Lemma u32_small x : x < 4294967296 -> u32 x = x. Proof. apply N.mod_small. Qed.
Lemma blen0 l : blen l = 0 -> l = []. Proof. destruct l; [reflexivity|]. rewrite blen_cons. lia. Qed.

(** * Sending *)
Definition good_buffer (b : buffer) : Prop := fst b = blen (snd b).
Definition all_data (bufs : list buffer) : bytes := concat (map snd bufs).
Lemma all_data_cons b r : all_data (b :: r) = snd b ++ all_data r. Proof. reflexivity. Qed.

Lemma total_ok bufs : Forall good_buffer bufs -> blen (all_data bufs) < 4294967296 -> total_bytes bufs = blen (all_data bufs).
Proof.
  intros F B. unfold total_bytes.
  assert (G : forall bufs t, Forall good_buffer bufs -> t + blen (all_data bufs) < 4294967296 ->
    fold_left (fun t b => u32 (t + fst b)) bufs t = t + blen (all_data bufs)).
  { clear. induction bufs as [|b r IH]; intros t F B; cbn [fold_left]; [unfold all_data; cbn; lia|].
    inversion F as [|? ? Fb Fr]; subst. rewrite all_data_cons, blen_app in *. unfold good_buffer in Fb.
    rewrite u32_small by lia. rewrite IH; [lia|exact Fr|lia]. }
  rewrite G; [lia|exact F|lia].
Qed.
Lemma fill_ok : forall bufs sent off, Forall good_buffer bufs -> off + blen (all_data bufs) < 4294967296 ->
  concat (fill sent off bufs) = skipn (N.to_nat (sent - off)) (all_data bufs).
Proof.
  induction bufs as [|[size data] r IH]; intros sent off F B; cbn [fill].
  - now rewrite skipn_nil.
  - inversion F as [|? ? Fb Fr]; subst. unfold good_buffer in Fb. cbn [fst snd] in Fb. rewrite all_data_cons in *. cbn [snd] in *. rewrite blen_app in B.
    rewrite u32_small by lia. specialize (IH sent (off + size) Fr ltac:(lia)).
    set (ov := if off <? sent then sent - off else 0).
    assert (OV : ov = sent - off) by (unfold ov; destruct (N.ltb_spec off sent); lia). rewrite OV.
    destruct (N.ltb_spec (sent - off) size) as [H|H].
    + cbn [concat]. rewrite IH. unfold slice. rewrite skipn_app. f_equal.
      * replace (size - (size - (sent - off))) with (sent - off) by lia. apply firstn_all2. rewrite skipn_length. unfold blen in *. lia.
      * f_equal. unfold blen in *. lia.
    + rewrite IH, skipn_app. rewrite (skipn_all2 data) by (unfold blen in *; lia). cbn [app]. f_equal. unfold blen in *. lia.
Qed.
Lemma send_loop_ok bufs : Forall good_buffer bufs -> blen (all_data bufs) < 4294967296 ->
  forall evs sent w res, sent <= blen (all_data bufs) -> send_loop (blen (all_data bufs)) bufs sent evs = (w, res) ->
  exists t, skipn (N.to_nat sent) (all_data bufs) = w ++ t /\ (res = Sent <-> t = []).
Proof.
  intros F B. set (all := all_data bufs) in *. set (tot := blen all) in *.
  assert (STOP : forall sent res, sent < tot -> res <> Sent -> exists t, skipn (N.to_nat sent) all = [] ++ t /\ (res = Sent <-> t = [])).
  { intros sent res H R. eexists. split; [reflexivity|]. split; [contradiction|]. intros X. apply (f_equal blen) in X. rewrite blen_skipn, blen_nil in X. fold tot in X. lia. }
  assert (DONE : forall sent, tot <= sent -> exists t, skipn (N.to_nat sent) all = [] ++ t /\ (Sent = Sent <-> t = [])).
  { intros sent H. exists []. split; [|tauto]. apply skipn_all2. unfold tot, blen in *. lia. }
  induction evs as [|e evs IH]; intros sent w res H E; cbn [send_loop] in E; destruct (N.ltb_spec sent tot) as [Hs|Hs].
  - injection E as <- <-. apply STOP; [exact Hs|discriminate].
  - injection E as <- <-. now apply DONE.
  - assert (OFF : concat (fill sent 0 bufs) = skipn (N.to_nat sent) all).
    { rewrite (fill_ok bufs sent 0 F); [now rewrite N.sub_0_r|]. change (all_data bufs) with all. change (blen all) with tot. lia. }
    destruct e as [n| | | |].
    + rewrite OFF in E. rewrite blen_skipn in E. fold tot in E. set (k := N.min (N.max 1 n) (tot - sent)) in *.
      destruct (N.eqb_spec k 0) as [K|K]; [exfalso; unfold k in K; lia|].
      rewrite u32_small in E by (unfold k; lia). destruct (send_loop tot bufs (sent + k) evs) as [w' res'] eqn:E'.
      injection E as <- <-. destruct (IH (sent + k) w' res') as (t & P1 & P2); [unfold k; lia|exact E'|].
      assert (SK : skipn (N.to_nat sent) all = firstn (N.to_nat k) (skipn (N.to_nat sent) all) ++ skipn (N.to_nat (sent + k)) all).
      { rewrite <- (firstn_skipn (N.to_nat k) (skipn (N.to_nat sent) all)) at 1. f_equal.
        assert (SS : forall (a b : nat) (l : bytes), skipn a (skipn b l) = skipn (b + a) l).
        { clear. intros a b. induction b; intros l; [reflexivity|]. destruct l; [now rewrite !skipn_nil|]. cbn [skipn Nat.add]. apply IHb. }
        rewrite SS. f_equal. lia. }
      set (fi := firstn (N.to_nat k) (skipn (N.to_nat sent) all)) in *. clearbody fi. rewrite SK.
      exists t. split; [now rewrite P1, <- app_assoc|exact P2].
    + apply IH; assumption.
    + injection E as <- <-. apply STOP; [exact Hs|discriminate].
    + injection E as <- <-. apply STOP; [exact Hs|discriminate].
    + injection E as <- <-. apply STOP; [exact Hs|discriminate].
  - injection E as <- <-. now apply DONE.
Qed.

(** A packet and its frame. *)
Definition frame (p : bytes) : bytes := le_bytes 4 (blen p) ++ p.
Definition packets (m : message) : list bytes := body m :: match payload m with None => [] | Some pl => [pl] end.
Definition frames (ps : list bytes) : bytes := concat (map frame ps).
Lemma frames_cons p ps : frames (p :: ps) = frame p ++ frames ps. Proof. reflexivity. Qed.
Lemma frames_app a b : frames (a ++ b) = frames a ++ frames b.
Proof. unfold frames. now rewrite map_app, concat_app. Qed.
Lemma blen_frame p : blen (frame p) = 4 + blen p. Proof. unfold frame. now rewrite blen_app, blen_le4. Qed.

Lemma good_sizes w k m : good_message w k m -> blen (body m) < 256 /\ match payload m with None => True | Some pl => blen pl <= 4294967031 end.
Proof. intros (_ & [_ A] & _ & _ & B). split; [exact A|]. destruct (payload m); [|exact I]. destruct w; cbn [recv_max] in B; lia. Qed.
Lemma send_buffers_ok w k m : good_message w k m ->
  Forall good_buffer (send_buffers m) /\ all_data (send_buffers m) = frames (packets m) /\ blen (all_data (send_buffers m)) < 4294967296.
Proof.
  intros G. destruct (good_sizes _ _ _ G) as [A B]. unfold send_buffers, packets. destruct (payload m) as [pl|].
  - rewrite !u32_small by lia. assert (E : all_data ([(4, le_bytes 4 (blen (body m))); (blen (body m), body m)] ++ [(4, le_bytes 4 (blen pl)); (blen pl, pl)]) = frames [body m; pl]).
    { unfold all_data, frames, frame. cbn [map concat app snd]. rewrite !app_nil_r, <- !app_assoc. reflexivity. }
    split; [|split; [exact E|]].
    + repeat constructor.
    + rewrite E. unfold frames. cbn [map concat]. rewrite !blen_app, !blen_frame, blen_nil. lia.
  - rewrite !u32_small by lia. assert (E : all_data ([(4, le_bytes 4 (blen (body m))); (blen (body m), body m)] ++ []) = frames [body m]).
    { unfold all_data, frames, frame. cbn [map concat app snd]. rewrite !app_nil_r. reflexivity. }
    split; [|split; [exact E|]].
    + repeat constructor.
    + rewrite E. unfold frames. cbn [map concat]. rewrite !blen_app, !blen_frame, blen_nil. lia.
Qed.

Definition all_frames (ms : list message) : bytes := frames (flat_map packets ms).
Lemma run_sends_quit calls : run_sends true calls = ([], map (fun _ => NotSent) calls).
Proof. induction calls as [|[m evs] r IH]; [reflexivity|]. cbn [run_sends]. rewrite IH. reflexivity. Qed.
Lemma run_sends_ok w k : forall calls wire res, Forall (good_message w k) (map fst calls) -> run_sends false calls = (wire, res) ->
  exists n ms, res = repeat Sent n ++ ms /\ ~ In Sent ms /\
    ((n = List.length calls /\ wire = all_frames (map fst calls)) \/
     exists a m b t t', map fst calls = a ++ m :: b /\ List.length a = n /\ t' <> [] /\ frames (packets m) = t ++ t' /\ wire = all_frames a ++ t).
Proof.
  induction calls as [|[m evs] r IH]; intros wire res F E; cbn [run_sends] in E.
  - injection E as <- <-. exists O, []. split; [reflexivity|split; [intros []|left; split; reflexivity]].
  - cbn [map fst] in *. inversion F as [|? ? Fm Fr]; subst. destruct (send_buffers_ok _ _ _ Fm) as (B1 & B2 & B3).
    assert (AF : forall l, all_frames (m :: l) = frames (packets m) ++ all_frames l) by (intros l; unfold all_frames; cbn [flat_map]; now rewrite frames_app).
    rewrite (total_ok _ B1 B3) in E. destruct (send_loop (blen (all_data (send_buffers m))) (send_buffers m) 0 evs) as [w1 r1] eqn:E1.
    destruct (send_loop_ok _ B1 B3 evs 0 w1 r1 ltac:(lia) E1) as (t & P1 & P2). change (N.to_nat 0) with O in *. cbn [skipn] in P1. rewrite B2 in P1.
    assert (BAD : r1 <> Sent -> forall ms, ~ In Sent ms -> exists n ms', ms = repeat Sent n ++ ms' /\ ~ In Sent ms' /\
      ((n = List.length ((m, evs) :: r) /\ w1 = all_frames (m :: map fst r)) \/
       exists a m0 b t0 t', m :: map fst r = a ++ m0 :: b /\ List.length a = n /\ t' <> [] /\ frames (packets m0) = t0 ++ t' /\ w1 = all_frames a ++ t0)).
    { intros R ms Hms. exists O, ms. split; [reflexivity|split; [exact Hms|]]. right. exists [], m, (map fst r), w1, t.
      split; [reflexivity|split; [reflexivity|split; [tauto|split; [exact P1|reflexivity]]]]. }
    destruct r1.
    + destruct (run_sends false r) as [w' rs] eqn:E2. injection E as <- <-. destruct (IH _ _ Fr eq_refl) as (n & ms & Q1 & Q2 & Q3).
      assert (T : t = []) by (now apply P2). subst t. rewrite app_nil_r in P1. exists (S n), ms. split; [now rewrite Q1|split; [exact Q2|]].
      destruct Q3 as [[-> ->]|(a & m0 & b & t0 & t' & -> & L & X & Y & ->)].
      * left. split; [reflexivity|]. now rewrite AF, P1.
      * right. exists (m :: a), m0, b, t0, t'. split; [reflexivity|split; [cbn [List.length]; now rewrite L|split; [exact X|split; [exact Y|]]]].
        now rewrite AF, P1, <- app_assoc.
    + rewrite run_sends_quit in E. injection E as <- <-. rewrite app_nil_r. apply BAD; [discriminate|].
      intros [X|X]; [discriminate|]. apply in_map_iff in X. destruct X as (? & X & _). discriminate.
    + injection E as <- <-. apply BAD; [discriminate|]. intros [X|[]]. discriminate.
Qed.

(** * Receiving *)
Lemma put_len mem off c : off + blen c <= blen mem -> blen (put mem off c) = blen mem.
Proof. intros H. unfold put. unfold blen in *. rewrite !app_length, firstn_length, skipn_length. lia. Qed.
Lemma put_first mem off c : off + blen c <= blen mem -> firstn (N.to_nat (off + blen c)) (put mem off c) = firstn (N.to_nat off) mem ++ c.
Proof.
  intros H. unfold put. rewrite app_assoc, firstn_app.
  assert (E : List.length (firstn (N.to_nat off) mem ++ c) = N.to_nat (off + blen c)) by (unfold blen in *; rewrite app_length, firstn_length; lia).
  rewrite E, Nat.sub_diag. cbn [firstn]. rewrite app_nil_r. apply firstn_all2. rewrite E. lia.
Qed.

Definition partial (p : phase) : bytes -> Prop :=
  match p with
  | InSize mem t => fun c => 1 <= t <= 4 /\ blen mem = 4 /\ c = firstn (N.to_nat (4 - t)) mem
  | InData size buf dest rem => fun c => exists h, blen h = 4 /\ le_value h = size /\ 1 <= rem /\ dest + rem = size /\ blen buf = size /\
                                c = h ++ firstn (N.to_nat dest) buf
  end.
(** The packets still to come, given the message whose payload is awaited. *)
Definition to_come (c : option bytes) (ps : list bytes) (ms : list message) : Prop :=
  match c with
  | None => ps = flat_map packets ms
  | Some b => exists pl ms', ms = {| body := b; payload := Some pl |} :: ms' /\ ps = pl :: flat_map packets ms'
  end.
(** [missing] has not arrived. *)
Definition rinv (windows : bool) (known : list N) (all : list message) (r : reader) (stream missing : bytes) : Prop :=
  exists ms, got r ++ ms = all /\ (missing <> [] -> ms <> []) /\
    (open r = true -> exists ps c, to_come (cur r) ps ms /\ partial (ph r) c /\ c ++ stream ++ missing = frames ps).

Lemma partial_fresh : partial (InSize [0; 0; 0; 0] 4) [].
Proof. cbn [partial]. split; [lia|split; [reflexivity|]]. replace (4 - 4) with 0 by lia. reflexivity. Qed.

Lemma nth_error_nth (l : bytes) i d : (i < List.length l)%nat -> nth_error l i = Some (nth i l d).
Proof. revert i. induction l as [|x l IH]; intros i H; cbn in H; [lia|]. destruct i; [reflexivity|]. cbn. apply IH. lia. Qed.

Lemma receive_packet windows known all r p ps ms : Forall (good_message windows known) all -> got r ++ ms = all ->
  to_come (cur r) (p :: ps) ms ->
  exists r', on_receive known r p = Some r' /\ ph r' = InSize [0; 0; 0; 0] 4 /\ open r' = open r /\
    exists ms', got r' ++ ms' = all /\ to_come (cur r') ps ms'.
Proof.
  intros G E T. unfold on_receive. destruct (cur r) as [b|] eqn:C; cbn [to_come] in T.
  - destruct T as (pl & ms' & -> & [= -> ->]).
    assert (M : good_message windows known {| body := b; payload := Some pl |}) by (rewrite Forall_forall in G; apply G; rewrite <- E; apply in_or_app; right; now left).
    destruct M as (K & _). cbn [body] in K.
    assert (K' : nmember (nth 0 b 0) known = true) by (apply existsb_exists; exists (nth 0 b 0); split; [exact K|apply N.eqb_refl]).
    rewrite K'. eexists. split; [reflexivity|]. cbn [ph open got cur]. split; [reflexivity|split; [reflexivity|]].
    exists ms'. split; [now rewrite <- app_assoc|reflexivity].
  - destruct ms as [|m ms]; [discriminate|]. cbn [flat_map] in T.
    assert (M : good_message windows known m) by (rewrite Forall_forall in G; apply G; rewrite <- E; apply in_or_app; right; now left).
    destruct M as (K & [LB _] & _ & FL & _). unfold packets in T. cbn [app] in T. injection T as -> T.
    rewrite (nth_error_nth _ 2 0) by (unfold blen in LB; lia). rewrite FL.
    assert (K' : nmember (nth 0 (body m) 0) known = true) by (apply existsb_exists; exists (nth 0 (body m) 0); split; [exact K|apply N.eqb_refl]).
    destruct m as [b [pl|]]; cbn [body payload] in *.
    + cbn [N.eqb]. eexists. split; [reflexivity|]. cbn [ph open got cur]. split; [reflexivity|split; [reflexivity|]].
      eexists. split; [exact E|]. cbn [to_come]. exists pl, ms. split; [reflexivity|exact T].
    + cbn [N.eqb]. rewrite K'. eexists. split; [reflexivity|]. cbn [ph open got cur]. split; [reflexivity|split; [reflexivity|]].
      exists ms. split; [now rewrite <- app_assoc|exact T].
Qed.
Lemma packets_small windows known all r ps ms p : Forall (good_message windows known) all -> got r ++ ms = all ->
  to_come (cur r) ps ms -> In p ps -> blen p <= recv_max windows.
Proof.
  intros G E T I.
  assert (X : exists m, In m ms /\ In p (packets m)).
  { unfold to_come in T. destruct (cur r) as [b|].
    - destruct T as (pl & ms' & -> & ->). destruct I as [<-|I].
      + eexists. split; [now left|]. right. now left.
      + apply in_flat_map in I. destruct I as (m & I1 & I2). exists m. split; [now right|exact I2].
    - subst ps. apply in_flat_map in I. destruct I as (m & I1 & I2). eauto. }
  destruct X as (m & X1 & X2).
  assert (M : good_message windows known m) by (rewrite Forall_forall in G; apply G; rewrite <- E; apply in_or_app; now right).
  destruct M as (_ & [_ A] & _ & _ & B). unfold packets in X2. destruct X2 as [<-|X2].
  - destruct windows; cbn [recv_max]; lia.
  - destruct (payload m) as [pl|]; [|destruct X2]. destruct X2 as [<-|[]]. lia.
Qed.

Lemma app_eq_len {A} (a b c d : list A) : a ++ b = c ++ d -> List.length a = List.length c -> a = c /\ b = d.
Proof.
  revert c. induction a as [|x a IH]; intros [|y c] E L; cbn in L; try lia; [auto|].
  injection E as -> E. destruct (IH c E) as [-> ->]; [lia|auto].
Qed.

Lemma pending {c ps ms x missing} : to_come c ps ms -> x ++ missing = frames ps -> missing <> [] -> ms <> [].
Proof.
  intros T E M ->. unfold to_come in T. destruct c as [b|]; [destruct T as (? & ? & X & _); discriminate|]. subst ps. cbn in E.
  apply app_eq_nil in E. tauto.
Qed.
Lemma rinv_step windows known all r stream missing e : Forall (good_message windows known) all -> rinv windows known all r stream missing ->
  exists r' stream', recv_step windows known r stream e = Some (r', stream') /\ rinv windows known all r' stream' missing.
Proof.
  intros G (ms & E & HM0 & H). unfold recv_step. destruct (open r) eqn:OP; [|exists r, stream; split; [reflexivity|]; exists ms; split; [exact E|split; [exact HM0|]]; rewrite OP; discriminate].
  destruct (H eq_refl) as (ps & c & T & P & ST). clear H.
  assert (CLOSE : rinv windows known all (close_it r) stream missing) by (exists ms; split; [exact E|split; [exact HM0|]]; cbn [close_it open]; discriminate).
  assert (SAME : rinv windows known all r stream missing) by (exists ms; split; [exact E|split; [exact HM0|]]; intros _; eauto).
  destruct e.
  2:{ eexists _, _. split; [reflexivity|]. exists ms. split; [exact E|split; [exact HM0|]]. intros _. exists ps, c. auto. }
  2:{ eexists _, _. split; [reflexivity|exact CLOSE]. }
  2:{ destruct (stale r); eexists _, _; (split; [reflexivity|assumption]). }
  2:{ eexists _, _. split; [reflexivity|exact CLOSE]. }
  2:{ eexists _, _. split; [reflexivity|]. exists ms. split; [exact E|split; [exact HM0|]]. intros _. exists ps, c. auto. }
  set (want := match ph r with InSize _ t => t | InData _ _ _ t => t end).
  destruct (N.ltb_spec (recv_max windows) want) as [W|W]; [eexists _, _; split; [reflexivity|exact CLOSE]|].
  set (k := N.min (N.min (N.max 1 n) want) (blen stream)).
  destruct (N.eqb_spec k 0) as [K|K]; [eexists _, _; split; [reflexivity|exact SAME]|].
  assert (KS : k <= blen stream) by (unfold k; lia). assert (KW : k <= want) by (unfold k; lia).
  set (chunk := firstn (N.to_nat k) stream). set (stream' := skipn (N.to_nat k) stream).
  assert (SPLIT : stream = chunk ++ stream') by (unfold chunk, stream'; now rewrite firstn_skipn).
  assert (LC : blen chunk = k) by (unfold chunk; rewrite blen_firstn; lia).
  clearbody chunk stream'. clearbody k. subst stream.
  destruct (ph r) as [mem t|size buf dest rem] eqn:PH; unfold want in *; clear want.
  - cbn [partial] in P. destruct P as (Ht & Hm & ->).
    assert (FITS : 4 - t + blen chunk <= blen mem) by lia.
    pose proof (put_first mem (4 - t) chunk FITS) as PF. pose proof (put_len mem (4 - t) chunk FITS) as PL. set (mem' := put mem (4 - t) chunk) in *.
    assert (S' : firstn (N.to_nat (4 - t + blen chunk)) mem' ++ stream' ++ missing = frames ps) by (rewrite PF, <- app_assoc, app_assoc, <- !app_assoc; rewrite <- ST, <- !app_assoc; reflexivity).
    destruct (N.eqb_spec (t - k) 0) as [D|D].
    + assert (W4 : firstn (N.to_nat (4 - t + blen chunk)) mem' = mem') by (apply firstn_all2; unfold blen in *; lia).
      rewrite W4 in S'. destruct ps as [|p ps].
      { exfalso. apply (f_equal (@List.length N)) in S'. rewrite app_length in S'. unfold frames, blen in *. cbn in S'. lia. }
      rewrite frames_cons in S'. unfold frame in S'. rewrite <- app_assoc in S'. apply app_eq_len in S'; [|rewrite le_bytes_len; unfold blen in *; lia].
      destruct S' as [HM S'].
      assert (SZ : le_value mem' = blen p).
      { rewrite HM. apply le_value_u32. assert (blen p <= recv_max windows) by (eapply packets_small; eauto; now left). destruct windows; cbn [recv_max] in *; lia. }
      rewrite SZ. destruct (N.eqb_spec (blen p) 0) as [Z|Z].
      * apply blen0 in Z. subst p. destruct (receive_packet windows known all r [] ps ms G E T) as (r' & R1 & R2 & R3 & ms' & R4 & R5).
        rewrite R1. cbn [option_map]. eexists _, _. split; [reflexivity|]. exists ms'. split; [exact R4|split; [now apply (pending R5 S')|]]. intros _. exists ps, [].
        rewrite R2. split; [exact R5|split; [exact partial_fresh|exact S']].
      * eexists _, _. split; [reflexivity|]. exists ms. split; [exact E|split; [exact HM0|]]. intros _. exists (p :: ps), mem'. cbn [with_ph cur ph]. split; [exact T|split].
        -- cbn [partial]. exists mem'. rewrite PL. split; [exact Hm|split; [exact SZ|split; [lia|split; [lia|split]]]].
           ++ unfold blen at 1. rewrite repeat_length. lia.
           ++ change (N.to_nat 0) with O. cbn [firstn]. now rewrite app_nil_r.
        -- rewrite frames_cons. unfold frame. rewrite <- app_assoc, <- HM. f_equal. exact S'.
    + eexists _, _. split; [reflexivity|]. exists ms. split; [exact E|split; [exact HM0|]]. intros _. exists ps. eexists. cbn [with_ph cur ph]. split; [exact T|split; [|exact S']].
      cbn [partial]. split; [lia|split; [lia|]]. do 2 f_equal. lia.
  - cbn [partial] in P. destruct P as (h & Hh & Hv & Hr & Hd & Hb & ->).
    assert (FITS : dest + blen chunk <= blen buf) by lia.
    pose proof (put_first buf dest chunk FITS) as PF. pose proof (put_len buf dest chunk FITS) as PL. set (buf' := put buf dest chunk) in *.
    assert (S' : h ++ firstn (N.to_nat (dest + blen chunk)) buf' ++ stream' ++ missing = frames ps).
    { rewrite <- ST, PF, <- !app_assoc. reflexivity. }
    destruct ps as [|p ps].
    { exfalso. apply (f_equal (@List.length N)) in S'. rewrite app_length in S'. unfold frames, blen in *. cbn in S'. lia. }
    assert (S2 := S'). rewrite frames_cons in S2. unfold frame in S2. rewrite <- app_assoc in S2. apply app_eq_len in S2; [|rewrite le_bytes_len; unfold blen in *; lia].
    destruct S2 as [HM S2].
    assert (SZ : size = blen p).
    { rewrite <- Hv, HM. apply le_value_u32. assert (blen p <= recv_max windows) by (eapply packets_small; eauto; now left). destruct windows; cbn [recv_max] in *; lia. }
    destruct (N.eqb_spec (rem - k) 0) as [D|D].
    + assert (WA : firstn (N.to_nat (dest + blen chunk)) buf' = buf') by (apply firstn_all2; unfold blen in *; lia).
      rewrite WA in S2. apply app_eq_len in S2; [|unfold blen in *; lia]. destruct S2 as [-> S2].
      destruct (receive_packet windows known all r p ps ms G E T) as (r' & R1 & R2 & R3 & ms' & R4 & R5).
      rewrite R1. cbn [option_map]. eexists _, _. split; [reflexivity|]. exists ms'. split; [exact R4|split; [now apply (pending R5 S2)|]]. intros _. exists ps, [].
      rewrite R2. split; [exact R5|split; [exact partial_fresh|exact S2]].
    + eexists _, _. split; [reflexivity|]. exists ms. split; [exact E|split; [exact HM0|]]. intros _. exists (p :: ps). eexists. cbn [with_ph cur ph]. split; [exact T|split].
      * cbn [partial]. exists h. split; [exact Hh|split; [exact Hv|split; [lia|split; [lia|split; [lia|reflexivity]]]]].
      * rewrite <- S', <- app_assoc. f_equal. f_equal. f_equal. lia.
Qed.
Lemma rinv_run windows known all : Forall (good_message windows known) all -> forall evs r stream missing, rinv windows known all r stream missing ->
  exists r' stream', run_reader windows known r stream evs = Some (r', stream') /\ rinv windows known all r' stream' missing.
Proof.
  intros G. induction evs as [|e evs IH]; intros r stream missing I; cbn [run_reader]; [eauto|].
  destruct (rinv_step windows known all r stream missing e G I) as (r' & s' & -> & I'). apply IH. exact I'.
Qed.
Lemma partial_short p c ps : partial p c -> c = frames ps -> Forall (fun q => blen q < 4294967296) ps -> ps = [].
Proof.
  intros P E F. destruct ps as [|q ps]; [reflexivity|]. exfalso. inversion F as [|? ? Fq _]; subst. rewrite frames_cons in P.
  destruct p as [mem t|size buf dest rem]; cbn [partial] in P.
  - destruct P as (A & B & C). apply (f_equal blen) in C. rewrite blen_app, blen_frame, blen_firstn in C. lia.
  - destruct P as (h & A & B & C & D & E & X). assert (L := f_equal blen X). rewrite !blen_app, blen_frame, blen_firstn in L.
    unfold frame in X. rewrite <- app_assoc in X. apply app_eq_len in X; [|rewrite le_bytes_len; unfold blen in *; lia]. destruct X as [X _].
    rewrite <- X, le_value_u32 in B by exact Fq. lia.
Qed.

(** Proofs about M_Str: every use of the strings that is in order does what it should; histories; and the
    uses that are not in order. *)
From Coq Require Import List Arith Bool Ascii NArith Lia.
From Verif Require Import M_Path M_Names M_Array M_Str S_Str P_Str P_Str2 P_Str3 P_Str4.
Import ListNotations.
Implicit Types h : heap.

Lemma zval_fun vs z u v : zval vs z u -> zval vs z v -> u = v.
Proof.
  intros [Nu Zu] [Nv Zv]. destruct z as [l|j a]; [congruence|].
  destruct Zu as (x & p & q & Lx & Ex & Lp & Eq). destruct Zv as (x' & p' & q' & Lx' & Ex' & Lp' & Eq').
  unfold is_live in *. rewrite Lx in Lx'. injection Lx' as <-. rewrite Ex in Ex'.
  apply app_split_len in Ex'; [|congruence]. destruct Ex' as [_ E]. clear - Nu Nv E Eq Eq'.
  assert (K : forall u v q q', ~ In nul u -> u ++ q = v ++ q' -> (q = [] \/ exists r, q = nul :: r) -> (q' = [] \/ exists r, q' = nul :: r) ->
            ~ In nul v -> u = v).
  { clear. induction u as [|c u IH]; intros [|d v] q q' Nu E Eq Eq' Nv; auto; cbn in E.
    - exfalso. destruct Eq as [->|[r ->]]; [discriminate|]. injection E as <- _. apply Nv. left. auto.
    - exfalso. destruct Eq' as [->|[r ->]]; [discriminate|]. injection E as -> _. apply Nu. left. auto.
    - injection E as -> E. f_equal. eapply IH; eauto; intros I; [apply Nu|apply Nv]; right; auto. }
  eapply K; eauto.
Qed.

Lemma first_text (v r : txt) : firstn (length v) (v ++ r) = v.
Proof. rewrite firstn_app, Nat.sub_diag, firstn_all. cbn [firstn]. apply app_nil_r. Qed.

Section Junk.
Context (junk : nat -> ascii).

Theorem step_ok w o : wf w -> allowed (texts w) o ->
  exists w' r, step junk w o = Some (w', r) /\ wf w' /\ effect (texts w) o (texts w') r.
Proof.
  intros W A.
  (* an operation on one live string *)
  assert (One : forall i u f (P : txt -> txt -> Prop), is_live (texts w) i u ->
      (forall s, live w i = Some s -> holds (blocks w) s u ->
         exists h' s' u', f (blocks w) s = Some (h', s') /\ holds h' s' u' /\ frame (blocks w) s h' s' /\ P u u') ->
      exists w' r, on w i f = Some (w', r) /\ wf w' /\ (r = 0 /\ exists u u', is_live (texts w) i u /\ P u u' /\ becomes (texts w) i (Some u') (texts w'))).
  { intros i u f P Lu H. destruct (is_live_holds w i u W Lu) as (s & Ls & Hs).
    destruct (on_ok w i s u (P u) f W Ls Hs (H s Ls Hs)) as (w' & E & W' & u' & Pu & B).
    exists w', 0. split; auto. split; auto. split; auto. exists u, u'. auto. }
  assert (New : forall x v (P : txt -> Prop), P v -> (exists h' s', x = Some (h', s') /\ holds h' s' v /\ frame (blocks w) fresh h' s') ->
      exists w' r, make w x = Some (w', r) /\ wf w' /\ (r = 0 /\ exists u, P u /\ texts w' = texts w ++ [Some u])).
  { intros x v P Pv (h' & s' & E & H & F). destruct (make_ok w x h' s' v W E H F) as (w' & E' & W' & T').
    exists w', 0. split; auto. split; auto. split; auto. exists v. auto. }
  destruct o as [|n|n|j|j|z|g|i|i z|i g|i j|i j|i|i|i n|i n|i c|i z|i j|i g|i a b most|i zf zt most|i|i|i a b|i c|i c].
  - (* ONew *) apply New with (v := []); auto. exists (blocks w), fresh. split; auto. split; [apply holds_fresh|]. apply frame_refl. auto.
  - destruct A as [A1 A2]. apply New with (v := []); auto. apply new_reserve_ok; auto.
  - apply New with (v := []); auto. destruct (new_stack_ok junk (blocks w) n A) as (h' & s' & E & H & F & _). eauto.
  - (* ONewCopy *) destruct A as [v Lv]. destruct (is_live_holds w j v W Lv) as (t & Lt & Ht). cbn [step]. rewrite Lt.
    apply New with (v := v); auto. destruct (holds_mem _ _ _ Ht) as [r M]. pose proof (holds_len _ _ _ Ht) as Ln.
    destruct (new_copy_ok junk (blocks w) (base t) (len t) _ M) as (h' & s' & E & H & F).
    { rewrite app_length. lia. } { rewrite Ln. eapply holds_fits; eauto. }
    rewrite Ln, first_text in H. eauto.
  - (* ONewMove *) destruct A as [v Lv]. destruct (is_live_holds w j v W Lv) as (t & Lt & Ht).
    destruct (new_move_ok junk w j t v W Lt Ht) as (w' & E & W' & ws & B & T). exists w', 0. split; auto. split; auto.
    split; auto. exists v, ws. auto.
  - (* ONewZ *) destruct A as (v & Zv & Fv). destruct (zarg_ok w z v W Zv) as (p & r & Ep & Mp & Nv & _). cbn [step]. rewrite Ep.
    apply New with (v := v); auto. eapply new_z_ok; eauto.
  - destruct A as (v & Zv & Fv). destruct (rarg_ok w g v W Zv) as (p & n & m & Ep & Mp & Lm & En & Em & _). cbn [step]. rewrite Ep.
    apply New with (v := v); auto. cbn [fst snd]. rewrite <- Em. eapply new_copy_ok; eauto. now rewrite En.
  - (* ODestroy *) destruct A as [v Lv]. destruct (is_live_holds w i v W Lv) as (s & Ls & Hs). cbn [step]. rewrite Ls.
    destruct (drop_ok _ _ _ Hs) as (h1 & E1 & _). rewrite E1. pose proof (drop_frame _ _ _ _ Hs E1) as F1.
    destruct (store_ok w i s h1 fresh [] W Ls (holds_fresh _) F1) as (w1 & Es & W1 & B1 & Bl & L1 & O1).
    unfold store in Es. cbn [fst snd] in Es. destruct (set (strs w) i (Some fresh)) as [l1|] eqn:E2; [|discriminate]. injection Es as <-.
    destruct (set_lt (strs w) i None) as [l E3]; [eapply live_lt; eauto|]. rewrite E3.
    pose proof (set_get_same _ _ _ _ E3) as S3. unfold get in S3.
    assert (O3 : forall k, k <> i -> nth_error l k = nth_error l1 k).
    { intros k Nk. pose proof (set_get_other _ _ _ _ k E3 Nk) as X. pose proof (set_get_other _ _ _ _ k E2 Nk) as Y. unfold get in *. congruence. }
    assert (Lo : forall k t, live (M_Str.W h1 l) k = Some t -> k <> i /\ live (M_Str.W h1 l1) k = Some t).
    { intros k t Lk. assert (Nk : k <> i). { intros ->. unfold live in Lk. cbn in Lk. now rewrite S3 in Lk. }
      split; auto. unfold live in *. cbn in *. now rewrite <- O3. }
    exists (M_Str.W h1 l), 0. split; auto. split.
    + split.
      * intros k t Lk. apply Lo in Lk. destruct Lk as [_ Lk]. apply (wf_holds _ W1 k t Lk).
      * intros k m t u b Nkm Lk Lm. apply Lo in Lk, Lm. destruct Lk as [_ Lk], Lm as [_ Lm]. eapply (wf_apart _ W1 k m); eauto.
      * intros b m Hb. destruct (wf_leak _ W1 b m Hb) as (k & t & Lk & Ek). exists k, t. split; auto.
        assert (Nk : k <> i). { intros ->. rewrite L1 in Lk. injection Lk as <-. discriminate. }
        unfold live in *. cbn in *. now rewrite O3.
    + split; auto. destruct B1 as (BL & BA & BO). split; [|split].
      * unfold texts in *. cbn in *. rewrite !map_length in *. rewrite (set_len _ _ _ _ E3). auto.
      * rewrite texts_nth. cbn. now rewrite S3.
      * intros k Nk. rewrite <- BO by auto. rewrite !texts_nth. cbn. now rewrite O3.
  - (* OAssignZ *) destruct A as ((u & Lu) & v & Zv & Fv). destruct (zarg_ok w z v W Zv) as (p & r & Ep & Mp & Nv & _ & Al).
    cbn [step]. rewrite Ep. apply (One i u _ (fun _ u' => zval (texts w) z u') Lu). intros s Ls Hs.
    unfold assign_z, strlen. rewrite Mp, (zlen_ok _ _ Nv).
    destruct (assign_ok junk (blocks w) s u p (length v) _ Hs Mp) as (h' & s' & E & H & F); auto.
    { rewrite app_length. lia. } { intros c q Ec. eapply Al; eauto. }
    rewrite first_text in H. eauto 7.
  - destruct A as ((u & Lu) & v & Zv & Fv). destruct (rarg_ok w g v W Zv) as (p & n & m & Ep & Mp & Lm & En & Em & _ & Al).
    cbn [step]. rewrite Ep. cbn [fst snd]. apply (One i u _ (fun _ u' => rval (texts w) g u') Lu). intros s Ls Hs.
    destruct (assign_ok junk (blocks w) s u p n _ Hs Mp) as (h' & s' & E & H & F); auto.
    { now rewrite En. } { intros c q Ec. eapply Al; eauto. }
    rewrite Em in H. eauto 7.
  - (* OAssign *) destruct A as ((u & Lu) & v & Lv). destruct (is_live_holds w j v W Lv) as (t & Lt & Ht). cbn [step]. rewrite Lt.
    apply (One i u _ (fun _ u' => is_live (texts w) j u') Lu). intros s Ls Hs.
    destruct (holds_mem _ _ _ Ht) as [r M]. pose proof (holds_len _ _ _ Ht) as Ln.
    destruct (assign_ok junk (blocks w) s u (base t) (len t) _ Hs M) as (h' & s' & E & H & F).
    { rewrite app_length. lia. } { rewrite Ln. eapply holds_fits; eauto. }
    { intros c q E Ec. destruct (Nat.eq_dec i j) as [->|N].
      - rewrite Ls in Lt. injection Lt as <-. apply (holds_res _ _ _ Hs).
      - exfalso. unfold base in E. destruct (at_ t) eqn:Et; [|discriminate]. injection E as -> _. eapply (wf_apart w W i j); eauto. }
    rewrite Ln, first_text in H. eauto 7.
  - (* OMove *) destruct A as ((u & Lu) & v & Lv). destruct (is_live_holds w i u W Lu) as (s & Ls & Hs).
    destruct (is_live_holds w j v W Lv) as (t & Lt & Ht).
    destruct (move_ok junk w i j s t u v W Ls Lt Hs Ht) as (w' & E & W' & ws & B1 & B2). exists w', 0. split; auto. split; auto.
    split; auto. exists v, ws. auto.
  - destruct A as [u Lu]. apply (One i u _ (fun _ u' => u' = []) Lu). intros s Ls Hs.
    destruct (clear_ok _ _ _ Hs) as (h' & s' & E & H & F). exists h', s', []. auto.
  - destruct A as [u Lu]. apply (One i u _ (fun _ u' => u' = []) Lu). intros s Ls Hs.
    destruct (clear_free_ok _ _ _ Hs) as (h' & s' & E & H & F). exists h', s', []. auto.
  - destruct A as ((u & Lu) & Fn). apply (One i u _ (fun u u' => length u' = n /\ firstn (length u) u' = firstn n u) Lu). intros s Ls Hs.
    destruct (set_length_ok junk _ _ _ n Hs Fn) as (h' & s' & v' & E & H & F & X & Y). exists h', s', v'. auto.
  - destruct A as ((u & Lu) & Fn). apply (One i u _ (fun u u' => u' = firstn n u) Lu). intros s Ls Hs.
    destruct (set_reserved_ok junk _ _ _ n Hs Fn) as (h' & s' & E & H & F). eauto 7.
  - destruct A as (u & Lu & Fn). apply (One i u _ (fun u u' => u' = u ++ [c]) Lu). intros s Ls Hs.
    destruct (push_ok junk _ _ _ c Hs Fn) as (h' & s' & E & H & F). eauto 7.
  - (* OAppendZ *) destruct A as (u & v & Lu & Zv & Fn & Ap). destruct (zarg_ok w z v W Zv) as (p & r & Ep & Mp & Nv & Apz & _).
    cbn [step]. rewrite Ep. apply (One i u _ (fun u u' => exists v, zval (texts w) z v /\ u' = u ++ v) Lu). intros s Ls Hs.
    destruct (append_z_ok junk _ _ _ p v r Hs Mp Nv Fn) as (h' & s' & E & H & F).
    { destruct Ap as [Ap|Ap]; [left; eapply Apz; eauto|right; auto]. }
    exists h', s', (u ++ v). repeat (split; auto). eauto.
  - (* OAppend *) destruct A as (u & v & Lu & Lv & Fn). destruct (is_live_holds w j v W Lv) as (t & Lt & Ht). cbn [step]. rewrite Lt.
    apply (One i u _ (fun u u' => exists v, is_live (texts w) j v /\ u' = u ++ v) Lu). intros s Ls Hs.
    destruct (i =? j) eqn:Eij.
    + apply Nat.eqb_eq in Eij. subst j. assert (v = u) by (unfold is_live in *; congruence). subst v.
      destruct (append_s_self junk _ _ _ Hs Fn) as (h' & s' & E & H & F). exists h', s', (u ++ u). repeat (split; auto). eauto.
    + apply Nat.eqb_neq in Eij. destruct (append_s_other junk _ _ _ t v Hs Ht) as (h' & s' & E & H & F); auto.
      { intros b Eb. eapply (wf_apart w W j i); eauto. }
      exists h', s', (u ++ v). repeat (split; auto). eauto.
  - destruct A as (u & v & Lu & Zv & Fn & Ap). destruct (rarg_ok w g v W Zv) as (p & n & m & Ep & Mp & Lm & En & Em & Apz & _).
    cbn [step]. rewrite Ep. cbn [fst snd]. apply (One i u _ (fun u u' => exists v, rval (texts w) g v /\ u' = u ++ v) Lu). intros s Ls Hs.
    destruct (append_n_ok junk _ _ _ p n m Hs Mp Lm) as (h' & s' & E & H & F).
    { now rewrite En. } { destruct Ap as [Ap|Ap]; [left; eapply Apz; eauto|right; rewrite En, Ap; reflexivity]. }
    rewrite Em in H. exists h', s', (u ++ v). repeat (split; auto). eauto.
  - (* OReplaceChar *) destruct A as [u Lu]. destruct (is_live_holds w i u W Lu) as (s & Ls & Hs). cbn [step]. unfold count. rewrite Ls.
    destruct (replace_char_ok (blocks w) s u a b most Hs) as (h' & v' & n & E & H & F & R). rewrite E. cbn [fst snd].
    destruct (store_ok w i s h' s v' W Ls H F) as (w' & Es & W' & B & _). rewrite Es. exists w', n. split; auto. split; auto.
    exists u, v'. auto.
  - (* OReplace *) destruct A as (u & f & t & Lu & Zf & Zt & Ft & Fo). destruct (is_live_holds w i u W Lu) as (s & Ls & Hs).
    destruct (zarg_ok w zf f W Zf) as (pf & rf & Epf & Mpf & Nf & _). destruct (zarg_ok w zt t W Zt) as (pt & rt & Ept & Mpt & Nt & _).
    cbn [step]. rewrite Epf, Ept. unfold count. rewrite Ls.
    destruct (replace_ok junk (blocks w) s u pf pt f t rf rt most Hs Mpf Nf Mpt Nt Fo) as (h' & s' & v' & n & E & H & F & R).
    rewrite E. cbn [fst snd]. destruct (store_ok w i s h' s' v' W Ls H F) as (w' & Es & W' & B & _). rewrite Es.
    exists w', n. split; auto. split; auto. exists u, v', f, t. auto 6.
  - destruct A as [u Lu]. apply (One i u _ (Forall2 (translated uppers lowers)) Lu). intros s Ls Hs.
    destruct (to_lower_ok _ _ _ Hs) as (h' & v' & E & H & F & R). eauto 7.
  - destruct A as [u Lu]. apply (One i u _ (Forall2 (translated lowers uppers)) Lu). intros s Ls Hs.
    destruct (to_upper_ok _ _ _ Hs) as (h' & v' & E & H & F & R). eauto 7.
  - destruct A as (u & Lu & Le).
    apply (One i u _ (fun u u' => exists p q, u = p ++ u' ++ q /\ length p = a /\ length q = b) Lu). intros s Ls Hs.
    destruct (trim_ok junk _ _ _ a b Hs Le) as (h' & s' & v' & E & H & F & R). eauto 7.
  - destruct A as [u Lu]. apply (One i u _ (fun u u' => exists n, u = repeat c n ++ u' /\ forall x, u' <> c :: x) Lu). intros s Ls Hs.
    destruct (trim_start_ok junk _ _ _ c Hs) as (h' & s' & v' & E & H & F & R). eauto 7.
  - destruct A as [u Lu]. apply (One i u _ (fun u u' => exists n, u = u' ++ repeat c n /\ forall x, u' <> x ++ [c]) Lu). intros s Ls Hs.
    destruct (trim_end_ok junk _ _ _ c Hs) as (h' & s' & v' & E & H & F & R). eauto 7.
Qed.

Theorem run_ok : forall l w, wf w -> in_order (texts w) l ->
  exists w' ns, run junk w l = Some (w', ns) /\ wf w' /\ does (texts w) l (texts w') ns.
Proof.
  induction l as [|o l IH]; intros w W I; cbn [run].
  - exists w, []. split; auto. split; auto. constructor.
  - destruct I as [A I]. destruct (step_ok w o W A) as (w1 & r & E & W1 & Ef). rewrite E. cbn [fst snd].
    destruct (IH w1 W1 (I _ _ Ef)) as (w2 & ns & E2 & W2 & D). rewrite E2. exists w2, (r :: ns). split; auto. split; auto.
    econstructor; eauto.
Qed.

(** ** Uses that are not in order *)
(** Copying a text onto its own terminator. *)
Lemma chase s b : at_ s = Some b -> forall fuel h k m x o, nth_error h b = Some (Some (k, m)) -> x < o ->
  (forall i, x <= i < o -> exists c, nth_error m i = Some c /\ c <> nul) ->
  zcopy fuel h (Blk b x) s o = None.
Proof.
  intros Es. induction fuel as [|fuel IH]; intros h k m x o Hb Lx Nn; auto. cbn [zcopy]. unfold read1. cbn [mem]. rewrite Hb.
  destruct (Nn x ltac:(lia)) as (c & Ec & Nc).
  assert (Sk : nth_error (skipn x m) 0 = Some c).
  { clear - Ec. revert m Ec. induction x as [|x IH]; intros [|d m] Ec; cbn in *; auto; discriminate. }
  rewrite Sk. unfold wr. rewrite Es. unfold write. rewrite Hb. cbn [length].
  destruct (o + 1 <=? length m) eqn:El; auto. apply Nat.leb_le in El.
  destruct (write_ok h b o [c] k m Hb) as (h1 & E1 & L1 & N1 & O1); [cbn; lia|].
  unfold write in E1. rewrite Hb in E1. cbn [length] in E1. rewrite (proj2 (Nat.leb_le _ _) El) in E1. rewrite E1.
  destruct (Ascii.eqb c nul) eqn:Eq; [apply Ascii.eqb_eq in Eq; contradiction|].
  cbn [padd]. rewrite Nat.add_1_r. eapply IH; [exact N1|lia|].
  intros i Hi. cbn [length]. destruct (Nat.eq_dec i o) as [->|Ni].
  - exists c. split; auto. rewrite nth_error_app2 by (rewrite firstn_length; lia). rewrite firstn_length, Nat.min_l by lia.
    rewrite Nat.sub_diag. reflexivity.
  - destruct (Nn i ltac:(lia)) as (d & Ed & Nd). exists d. split; auto.
    rewrite nth_error_app1 by (rewrite firstn_length; lia). rewrite <- Ed.
    clear - Hi Ni Lx. assert (Li : i < o) by lia. clear - Li. revert o i Li. induction m as [|y m IH]; intros [|o] [|i] Li; cbn; auto; try lia.
    apply IH. lia.
Qed.

Lemma self_append_bad h s u a : holds h s u -> ~ In nul u -> a < length u -> fits (length u + length u) ->
  own s = true \/ length u + (length u - a) <= res s -> append_z junk h s (padd (base s) a) = None.
Proof.
  intros H Nu La Hf Hc. pose proof (holds_len _ _ _ H) as Lu. destruct (holds_mem _ _ _ H) as [r M].
  pose proof (mem_padd _ _ a _ M) as Ma. unfold append_z, strlen. rewrite Ma.
  assert (Es : skipn a (u ++ nul :: r) = skipn a u ++ nul :: r).
  { rewrite skipn_app. replace (a - length u) with 0 by lia. reflexivity. }
  rewrite Es. rewrite zlen_ok.
  2:{ intros I. apply Nu. rewrite <- (firstn_skipn a u). apply in_or_app. auto. }
  rewrite skipn_length. rewrite (w32_small (length u - a)) by (eapply fits_le; [|exact Hf]; lia).
  rewrite (proj2 (Nat.eqb_neq _ _)) by lia. rewrite Lu. rewrite (w32_small (length u + (length u - a))) by (eapply fits_le; [|exact Hf]; lia).
  destruct (res s <? length u + (length u - a)) eqn:Er.
  - apply Nat.ltb_lt in Er. destruct Hc as [Ho|]; [|lia].
    destruct (grow_ok junk h s u (length u + (length u - a)) H) as (h1 & s1 & E1 & H1 & R1 & L1 & F1 & A1).
    { eapply fits_le; [|exact Hf]. lia. } { lia. }
    rewrite E1. unfold copy_z. cbn [zcopy]. unfold read1.
    pose proof H as J. unfold holds in J. unfold base. destruct (at_ s) as [c|] eqn:Ec; [|destruct J as (_ & _ & _ & X); congruence].
    cbn [padd mem]. destruct J as (rr & Jc & _). pose proof (nth_lt _ _ _ Jc) as Lc.
    destruct (nth_error h1 c) as [[[k m]|]|] eqn:Nc; auto. exfalso.
    (* the old block was freed by Grow *)
    unfold grow in E1. cbn zeta in E1. destruct (alloc junk h true _) as [ha bb] eqn:Ea.
    destruct (copy_n ha (base s) _ 0 (len s)) as [hb|]; [|discriminate]. rewrite Ho in E1. rewrite Ec in E1.
    unfold free in E1. destruct (nth_error hb c) as [[[[] ?]|]|]; try discriminate.
    destruct (set hb c None) as [hc|] eqn:Es3; [|discriminate]. injection E1 as <- <-.
    pose proof (set_get_same _ _ _ _ Es3) as X. unfold get in X. congruence.
  - apply Nat.ltb_ge in Er. pose proof H as J. unfold holds in J. unfold base. destruct (at_ s) as [b|] eqn:Eb.
    + destruct J as (rr & Jb & _ & Rr & _). cbn [padd]. unfold copy_z.
      rewrite (chase s b Eb (S (S (res s))) h (own s) (u ++ nul :: rr) (0 + a) (len s) Jb); auto; [lia|].
      intros i Hi. destruct (nth_error u i) as [c|] eqn:Ei.
      * exists c. split; [rewrite nth_error_app1; auto; lia|]. intros ->. apply Nu. eapply nth_error_In; eauto.
      * apply nth_error_None in Ei. lia.
    + destruct J as (-> & _). cbn in La. lia.
Qed.

(** Lengths beyond 32 bits. *)
Lemma grow_shape h s n h1 s1 : grow junk h s n = Some (h1, s1) -> (N.of_nat n < 4294967296)%N -> fits (res s) ->
  exists b, at_ s1 = Some b /\ (forall k m, nth_error h1 b = Some (Some (k, m)) -> length m = res s1 + 1) /\ fits (res s1) /\ len s1 = len s.
Proof.
  unfold grow. intros E Hn Hr. cbn zeta in E. set (r := round2 _) in *.
  destruct (alloc junk h true (r + 1)) as [ha b] eqn:Ea. destruct (alloc_ok _ _ _ _ _ _ Ea) as (Eb & L1 & (m & Nb & Lm) & O1).
  destruct (copy_n ha _ _ 0 (len s)) as [hb|] eqn:Ec; [|discriminate].
  assert (Fr : fits r). { apply round2_bound. pose proof (w32_fits (res s * 2)). lia. }
  assert (Sb : forall k x, nth_error hb b = Some (Some (k, x)) -> length x = r + 1).
  { intros k x Hx. unfold copy_n in Ec. destruct (read ha (base s) (len s)) as [l|]; [|discriminate].
    cbn [wr at_] in Ec. unfold wr in Ec. cbn [at_] in Ec.
    assert (Wl : forall g o y g', write g b o y = Some g' -> (forall k z, nth_error g b = Some (Some (k, z)) -> length z = r + 1) ->
               (forall k z, nth_error g' b = Some (Some (k, z)) -> length z = r + 1)).
    { clear. intros g o y g' E G k z Hz. unfold write in E. destruct (nth_error g b) as [[[k0 m0]|]|] eqn:Eg; try discriminate.
      destruct (o + length y <=? length m0) eqn:El; [|discriminate]. apply Nat.leb_le in El.
      pose proof (set_get_same _ _ _ _ E) as X. unfold get in X. rewrite X in Hz. injection Hz as <- <-.
      specialize (G _ _ eq_refl). rewrite !app_length, firstn_length, skipn_length. lia. }
    destruct (write ha b 0 l) as [hc|] eqn:E1; [|discriminate]. eapply Wl; eauto. eapply Wl; eauto.
    intros k0 z Hz. rewrite Nb in Hz. injection Hz as <- <-. auto. }
  destruct (own s).
  - unfold free in E. destruct (at_ s) as [c|]; [|discriminate]. destruct (nth_error hb c) as [[[[] ?]|]|]; try discriminate.
    destruct (set hb c None) as [hd|] eqn:Ed; [|discriminate]. injection E as <- <-. exists b. cbn [at_ res len]. split; auto. split; auto.
    intros k x Hx. destruct (Nat.eq_dec b c) as [->|N].
    + pose proof (set_get_same _ _ _ _ Ed) as X. unfold get in X. congruence.
    + pose proof (set_get_other _ _ _ _ b Ed N) as X. unfold get in X. rewrite X in Hx. eapply Sb; eauto.
  - injection E as <- <-. exists b. cbn [at_ res len]. auto.
Qed.
Lemma copy_outside h p s o n : (forall b k m, at_ s = Some b -> nth_error h b = Some (Some (k, m)) -> length m < o + n) ->
  copy_n h p s o n = None.
Proof.
  intros H. unfold copy_n, wr, read. destruct (mem h p) as [m|]; auto. destruct (n <=? length m) eqn:El; auto.
  apply Nat.leb_le in El. destruct (at_ s) as [b|] eqn:Eb; auto. unfold write at 1.
  destruct (nth_error h b) as [[[k x]|]|] eqn:Ex; auto. specialize (H b k x eq_refl Ex).
  rewrite firstn_length. rewrite Nat.min_l by lia. rewrite (proj2 (Nat.leb_gt _ _)) by lia. reflexivity.
Qed.
Lemma append_wrap_bad h s t u v : holds h s u -> holds h t v -> (4294967296 <= N.of_nat (length u + length v))%N ->
  append_s junk h s (Some t) = None.
Proof.
  intros Hs Ht Hw. pose proof (holds_len _ _ _ Hs) as Lu. pose proof (holds_len _ _ _ Ht) as Lv. destruct (holds_res _ _ _ Hs) as [Lr Fr].
  pose proof (holds_fits _ _ _ Hs) as Fu. pose proof (holds_fits _ _ _ Ht) as Fv. unfold fits in Fu, Fv.
  unfold append_s. rewrite (proj2 (Nat.eqb_neq _ _)) by lia. set (n := w32 (len s + len t)).
  pose proof (w32_fits (len s + len t)) as Wn. fold n in Wn. destruct (res s <? n).
  - destruct (grow junk h s n) as [[h1 s1]|] eqn:Eg; auto.
    destruct (grow_shape h s n h1 s1 Eg Wn Fr) as (b & E1 & E2 & E3 & E4). unfold fits in E3.
    rewrite copy_outside; auto. intros b' k m Eb Em. rewrite E1 in Eb. injection Eb as <-. rewrite (E2 _ _ Em), E4. lia.
  - rewrite copy_outside; auto. intros b k m Eb Em. unfold holds in Hs. rewrite Eb in Hs. destruct Hs as (rr & Hb & _ & Rr & _).
    unfold fits in Fr. rewrite Hb in Em. injection Em as <- <-. rewrite app_length. cbn [length]. lia.
Qed.
End Junk.

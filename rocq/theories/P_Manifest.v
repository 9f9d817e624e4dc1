From Coq Require Import List Arith Bool NArith Lia.
From Verif Require Import M_Bytes M_Stream P_Stream M_Codec P_Codec M_Manifest S_Manifest.
Import ListNotations.
Local Open Scope N_scope.

Lemma no_nul_iff s : no_nul s = true <-> ~ In 0 s.
Proof.
  unfold no_nul. rewrite forallb_forall. split.
  - intros H I. specialize (H 0 I). discriminate.
  - intros H x I. destruct (N.eqb_spec x 0) as [->|]; [contradiction|reflexivity].
Qed.

Definition mf_ok (f : mfile) : Prop :=
  ~ In 0 (mf_name f) /\ blen (mf_name f) < 4294967296 /\ 0 < mf_stamp f < 18446744073709551616 /\ 0 < mf_hash f < 4294967296 /\ mf_size f < 4294967296.
Definition man_ok (m : manifest) : Prop :=
  man_id m < 18446744073709551616 /\ ~ In 0 (man_root m) /\ blen (man_root m) < 4294967296 /\
  man_files m <> [] /\ N.of_nat (List.length (man_files m)) < 4294967296 /\ Forall mf_ok (man_files m) /\
  N.of_nat (List.length (man_env m)) < 4294967296 /\ Forall (fun v => ~ In 0 v /\ blen v < 4294967296) (man_env m).

Lemma c_mfile f : mf_ok f -> codec rd_mfile (wr_mfile f) f.
Proof.
  intros (N0&L&S&H&Z). destruct f as [nm st h z]. cbn [mf_name mf_stamp mf_hash mf_size] in *. unfold rd_mfile, wr_mfile. cbn [mf_name mf_stamp mf_hash mf_size].
  apply (c_bind _ _ _ _ nm); [now apply c_str|]. apply (c_bind _ _ _ _ st); [apply c_u64; lia|]. apply (c_bind _ _ _ _ h); [apply c_u32; lia|].
  apply (c_map _ _ _ z); [apply c_u32; lia|]. apply c_guard; [|apply c_ret].
  apply no_nul_iff in N0. rewrite N0. destruct (N.eqb_spec st 0), (N.eqb_spec h 0); try lia; reflexivity.
Qed.
Lemma c_evar v : ~ In 0 v /\ blen v < 4294967296 -> codec rd_evar (wr_str v) v.
Proof. intros (N0&L). unfold rd_evar. apply (c_map _ _ _ v); [now apply c_str|]. apply c_guard; [now apply no_nul_iff|apply c_ret]. Qed.

Lemma bind_step {A B} (r : reader A) (k : A -> reader B) e x s t : decodes r e x -> views s (e ++ t) -> exists s', views s' t /\ bind r k s = k x s'.
Proof. intros D V. destruct (D s t V) as (s'&E&V'). exists s'. unfold bind. rewrite E. auto. Qed.

Definition man_tail (tid : N) (root : bytes) (files : list mfile) : reader manifest :=
  bind (r_int_ignored 4) (fun ne => bind (r_rep (N.to_nat ne) rd_evar) (fun env => ret (mkMan tid root files env))).
Lemma man_head_step m s t : man_ok m -> views s (man_head m ++ t) -> exists s', views s' t /\ man_read (man_id m) s = man_tail (man_id m) (man_root m) (man_files m) s'.
Proof.
  intros (I&RN&RL&FN&FL&FF&_) V. unfold man_head in V. rewrite <- !app_assoc in V. unfold man_read.
  destruct (bind_step (r_int 8) (fun tid => bind r_str (fun root => bind (r_int 4) (fun n =>
    bind (guard (no_nul root && negb (n =? 0) && (tid =? man_id m))) (fun _ => bind (r_rep (N.to_nat n) rd_mfile) (fun files => man_tail tid root files))))) _ _ s _ (proj1 (c_u64 _ I)) V) as (s1&V1&E1).
  unfold man_tail in E1 at 1. rewrite E1. clear E1.
  destruct (bind_step r_str (fun root => bind (r_int 4) (fun n =>
    bind (guard (no_nul root && negb (n =? 0) && (man_id m =? man_id m))) (fun _ => bind (r_rep (N.to_nat n) rd_mfile) (fun files => man_tail (man_id m) root files)))) _ _ s1 _ (proj1 (c_str _ RL)) V1) as (s2&V2&E2).
  rewrite E2. clear E2. unfold u32 in V2. rewrite N.mod_small in V2 by auto.
  destruct (bind_step (r_int 4) (fun n =>
    bind (guard (no_nul (man_root m) && negb (n =? 0) && (man_id m =? man_id m))) (fun _ => bind (r_rep (N.to_nat n) rd_mfile) (fun files => man_tail (man_id m) (man_root m) files))) _ _ s2 _ (proj1 (c_u32 _ FL)) V2) as (s3&V3&E3).
  rewrite E3. clear E3. apply no_nul_iff in RN. rewrite RN, N.eqb_refl.
  destruct (N.eqb_spec (N.of_nat (List.length (man_files m))) 0) as [E0|NE]; [destruct (man_files m); [congruence|cbn in E0; lia]|].
  cbn [negb andb guard]. rewrite Nat2N.id.
  assert (CF : codec (r_rep (List.length (man_files m)) rd_mfile) (flat_map wr_mfile (man_files m)) (man_files m)).
  { apply c_rep. eapply Forall_impl; [|exact FF]. intros f. apply c_mfile. }
  destruct (bind_step (r_rep (List.length (man_files m)) rd_mfile) (fun files => man_tail (man_id m) (man_root m) files) _ _ s3 _ (proj1 CF) V3) as (s4&V4&E4).
  exists s4. split; [exact V4|]. exact E4.
Qed.
Lemma cf_nil {A} (r : reader A) : cut_fails r [].
Proof. intros s p q E N. symmetry in E. apply app_eq_nil in E. tauto. Qed.
Lemma man_head_cut m : man_ok m -> cut_fails (man_read (man_id m)) (man_head m).
Proof.
  intros (I&RN&RL&FN&FL&FF&_). unfold man_head, man_read. unfold u32. rewrite N.mod_small by auto.
  eapply cf_bind; [apply c_u64; auto|]. eapply cf_bind; [apply c_str; auto|]. eapply cf_bind; [apply c_u32; auto|].
  apply no_nul_iff in RN. rewrite RN, N.eqb_refl.
  destruct (N.eqb_spec (N.of_nat (List.length (man_files m))) 0) as [E0|NE]; [destruct (man_files m); [congruence|cbn in E0; lia]|].
  cbn [negb andb guard]. rewrite Nat2N.id. rewrite <- (app_nil_r (flat_map wr_mfile (man_files m))).
  assert (CF : codec (r_rep (List.length (man_files m)) rd_mfile) (flat_map wr_mfile (man_files m)) (man_files m)).
  { apply c_rep. eapply Forall_impl; [|exact FF]. intros f. apply c_mfile. }
  change (cut_fails (bind (r_rep (List.length (man_files m)) rd_mfile) (fun files => man_tail (man_id m) (man_root m) files)) (flat_map wr_mfile (man_files m) ++ [])).
  eapply cf_bind; [exact CF|]. apply cf_nil.
Qed.
Lemma d_int_ignored n x : x < 256 ^ N.of_nat n -> decodes (r_int_ignored n) (le_bytes n x) x.
Proof. intros B s rest V. destruct (rd_int_ok n s x rest V B) as (s'&E&V'&_). exists s'. unfold r_int_ignored. rewrite E. auto. Qed.

Lemma man_round m rest s : man_ok m -> views s (man_write m ++ rest) -> exists s', man_read (man_id m) s = Some (Some m, s') /\ views s' rest.
Proof.
  intros OK V. unfold man_write in V. rewrite <- !app_assoc in V. destruct (man_head_step m s _ OK V) as (s1&V1&E1). rewrite E1.
  destruct OK as (_&_&_&_&_&_&EL&EF). unfold u32 in V1. rewrite N.mod_small in V1 by auto.
  assert (D : decodes (man_tail (man_id m) (man_root m) (man_files m)) (le_bytes 4 (N.of_nat (List.length (man_env m))) ++ flat_map wr_str (man_env m)) m).
  { unfold man_tail. apply (d_bind _ _ _ _ (N.of_nat (List.length (man_env m)))); [now apply d_int_ignored|]. rewrite Nat2N.id.
    rewrite <- (app_nil_r (flat_map _ _)). apply (d_bind _ _ _ _ (man_env m)); [|destruct m; apply d_ret].
    apply c_rep. eapply Forall_impl; [|exact EF]. intros v. apply c_evar. }
  rewrite app_assoc in V1. exact (D s1 rest V1).
Qed.
Lemma rd_evar_end s : views s [] -> exists s', rd_evar s = Some (None, s').
Proof.
  intros V. unfold rd_evar, bind, r_str, rd_str, rd_int. destruct (views_short s [] 4 V ltac:(cbn; lia)) as (s'&E&_). rewrite E. cbn. eauto.
Qed.
Lemma man_cut m p q s : man_ok m -> man_write m = p ++ q -> q <> [] -> views s p ->
  (exists s', man_read (man_id m) s = Some (None, s')) \/
  ((List.length (man_head m) <= List.length p < List.length (man_head m) + 4)%nat /\
   exists s', man_read (man_id m) s = Some (Some (mkMan (man_id m) (man_root m) (man_files m) []), s')).
Proof.
  intros OK E NQ V. unfold man_write in E. destruct (split_app _ _ _ _ E) as [(q1&E1&N1)|(p2&->&E2)].
  - left. apply (man_head_cut m OK s p q1 E1 N1 V).
  - destruct (man_head_step m s p2 OK V) as (s1&V1&E1). rewrite E1.
    assert (EL := proj1 (proj2 (proj2 (proj2 (proj2 (proj2 (proj2 OK))))))). assert (EF := proj2 (proj2 (proj2 (proj2 (proj2 (proj2 (proj2 OK))))))).
    unfold u32 in E2. rewrite N.mod_small in E2 by auto. symmetry in E2. symmetry in E2. destruct (split_app _ _ _ _ E2) as [(q1&E3&N1)|(p3&->&E3)].
    + pose proof (app_shorter _ _ _ E3 N1) as SL. rewrite le_bytes_len in SL. destruct (views_short s1 p2 4 V1 SL) as (s2&ER&V2).
      assert (ET : man_tail (man_id m) (man_root m) (man_files m) s1 = bind (r_rep (N.to_nat (le_value p2)) rd_evar) (fun env => ret (mkMan (man_id m) (man_root m) (man_files m) env)) s2).
      { unfold man_tail. unfold bind at 1. unfold r_int_ignored, rd_int. rewrite ER. destruct (Nat.eqb_spec (List.length p2) 4); [lia|reflexivity]. }
      rewrite ET. destruct (N.to_nat (le_value p2)) as [|k].
      * right. split; [rewrite app_length; lia|]. exists s2. reflexivity.
      * left. destruct (rd_evar_end s2 V2) as (s3&E4). exists s3. cbn [r_rep]. unfold bind. rewrite E4. reflexivity.
    + left. unfold man_tail. destruct (bind_step (r_int_ignored 4) (fun ne => bind (r_rep (N.to_nat ne) rd_evar) (fun env => ret (mkMan (man_id m) (man_root m) (man_files m) env))) _ _ s1 _ (d_int_ignored 4 _ EL) V1) as (s2&V2&E4).
      rewrite E4. rewrite Nat2N.id.
      assert (CR : codec (r_rep (List.length (man_env m)) rd_evar) (flat_map wr_str (man_env m)) (man_env m)).
      { apply c_rep. eapply Forall_impl; [|exact EF]. intros v. apply c_evar. }
      destruct (proj2 CR s2 p3 q E3 NQ V2) as (s3&E5). unfold bind. rewrite E5. eauto.
Qed.
Lemma man_read_safe id : safe (man_read id).
Proof.
  unfold man_read. repeat (first [apply s_bind; [first [apply s_int|apply s_str|apply s_guard|apply s_int_ignored|apply s_rep]|intros]|apply s_ret|
    unfold rd_mfile|unfold rd_evar|apply s_int|apply s_str|apply s_guard]).
Qed.
Lemma rep_all {A} (P : A -> Prop) (r : reader A) n : (forall s x s', r s = Some (Some x, s') -> P x) -> forall s l s', r_rep n r s = Some (Some l, s') -> Forall P l /\ List.length l = n.
Proof.
  intros H. induction n as [|n IH]; intros s l s' E; cbn [r_rep] in E.
  - inversion E; subst. auto.
  - unfold bind at 1 in E. destruct (r s) as [[[x|] s1]|] eqn:E1; try discriminate. unfold bind in E. destruct (r_rep n r s1) as [[[t|] s2]|] eqn:E2; try discriminate.
    inversion E; subst. destruct (IH _ _ _ E2). split; [constructor; eauto|cbn; auto].
Qed.
Lemma man_read_sane id s m s' : man_read id s = Some (Some m, s') ->
  man_id m = id /\ ~ In 0 (man_root m) /\ man_files m <> [] /\
  Forall (fun f => ~ In 0 (mf_name f) /\ mf_stamp f <> 0 /\ mf_hash f <> 0) (man_files m) /\ Forall (fun v => ~ In 0 v) (man_env m).
Proof.
  unfold man_read. unfold bind at 1. destruct (r_int 8 s) as [[[tid|] s1]|]; try discriminate.
  unfold bind at 1. destruct (r_str s1) as [[[root|] s2]|]; try discriminate.
  unfold bind at 1. destruct (r_int 4 s2) as [[[n|] s3]|]; try discriminate.
  unfold bind at 1. destruct (no_nul root && negb (n =? 0) && (tid =? id)) eqn:G; [cbn [guard ret]|discriminate].
  unfold ret at 1. apply andb_true_iff in G as (G&G3). apply andb_true_iff in G as (G1&G2). apply N.eqb_eq in G3. apply negb_true_iff, N.eqb_neq in G2. apply no_nul_iff in G1.
  unfold bind at 1. destruct (r_rep (N.to_nat n) rd_mfile s3) as [[[files|] s4]|] eqn:EF; try discriminate.
  unfold bind at 1. destruct (r_int_ignored 4 s4) as [[[ne|] s5]|]; try discriminate.
  unfold bind at 1. destruct (r_rep (N.to_nat ne) rd_evar s5) as [[[env|] s6]|] eqn:EE; try discriminate.
  intros E. inversion E; subst. cbn [man_id man_root man_files man_env].
  apply (rep_all (fun f => ~ In 0 (mf_name f) /\ mf_stamp f <> 0 /\ mf_hash f <> 0)) in EF as (EF&EL).
  - apply (rep_all (fun v => ~ In 0 v)) in EE as (EE&_).
    + repeat split; auto. intros ->. cbn in EL. lia.
    + clear. intros s x s' E. unfold rd_evar, bind in E. destruct (r_str s) as [[[v|] s1]|]; try discriminate. destruct (no_nul v) eqn:G; [|discriminate]. inversion E; subst. now apply no_nul_iff.
  - clear. intros s x s' E. unfold rd_mfile, bind in E. destruct (r_str s) as [[[v|] s1]|]; try discriminate.
    destruct (r_int 8 s1) as [[[st|] s2]|]; try discriminate. destruct (r_int 4 s2) as [[[h|] s3]|]; try discriminate. destruct (r_int 4 s3) as [[[z|] s4]|]; try discriminate.
    destruct (no_nul v && negb (st =? 0) && negb (h =? 0)) eqn:G; [|discriminate]. inversion E; subst. cbn.
    apply andb_true_iff in G as (G&G3). apply andb_true_iff in G as (G1&G2). apply negb_true_iff, N.eqb_neq in G2, G3. apply no_nul_iff in G1. auto.
Qed.

(** ** The environment block *)
Lemma mem_write_at d old new tl : List.length old = List.length new ->
  mem_write (map Some d ++ old ++ tl) (List.length d) new = Some (map Some (d ++ new) ++ tl).
Proof.
  intros L. unfold mem_write. rewrite !app_length, map_length. destruct (Nat.leb_spec (List.length d + List.length new) (List.length d + (List.length old + List.length tl))); [|lia].
  f_equal. rewrite firstn_app, map_length, Nat.sub_diag. cbn [firstn]. rewrite app_nil_r.
  rewrite firstn_all2 by (rewrite map_length; lia). rewrite map_app, <- app_assoc. f_equal. f_equal.
  rewrite skipn_app, map_length. rewrite skipn_all2 by (rewrite map_length; lia). cbn [app]. replace (List.length d + List.length new - List.length d)%nat with (List.length new) by lia.
  rewrite skipn_app, <- L, Nat.sub_diag, skipn_all. reflexivity.
Qed.
Definition at_ (st : mem * nat) (d : bytes) (n : nat) : Prop := exists tl, fst st = map Some d ++ tl /\ snd st = List.length d /\ List.length tl = n.
Lemma split_len {A} (l : list A) k : (k <= List.length l)%nat -> exists a b, l = a ++ b /\ List.length a = k.
Proof. intros H. exists (firstn k l), (skipn k l). rewrite firstn_skipn, firstn_length. split; [auto|lia]. Qed.
Lemma mem_copy_at m d n src k : at_ (m, List.length d) d n -> (k <= List.length src + 1)%nat -> (k + 1 <= n)%nat ->
  exists m', mem_copy m (List.length d) src k = Some m' /\ at_ (m', (List.length d + k)%nat) (d ++ firstn k (src ++ [0])) (n - k).
Proof.
  intros (tl&E&_&L) HK HN. cbn [fst] in E. unfold mem_copy. destruct (Nat.leb_spec k (List.length src + 1)); [|lia].
  set (c := firstn k (src ++ [0])). assert (LC : List.length c = k) by (unfold c; rewrite firstn_length, app_length; cbn; lia).
  destruct (split_len tl (k + 1) ltac:(lia)) as (o&t2&->&LO). subst m. rewrite mem_write_at by (rewrite app_length; cbn; lia).
  eexists. split; [reflexivity|]. exists (Some 0 :: t2). cbn [fst snd]. rewrite app_assoc, map_app, <- app_assoc. cbn [map app]. split; [reflexivity|].
  rewrite !app_length, LC. split; [reflexivity|]. rewrite app_length in L. cbn. lia.
Qed.
Lemma put_plain_at st d n v : at_ st d n -> (List.length v + 1 < n)%nat ->
  exists st', put_plain st v = Some st' /\ at_ st' (d ++ v ++ [0]) (n - (List.length v + 1)).
Proof.
  intros A H. destruct st as [m p]. assert (p = List.length d) as -> by (destruct A as (?&_&E&_); exact E).
  unfold put_plain. destruct (mem_copy_at m d n v (List.length v + 1) A ltac:(lia) ltac:(lia)) as (m'&E&A'). rewrite E.
  eexists. split; [reflexivity|]. rewrite firstn_all2 in A' by (rewrite app_length; cbn; lia). exact A'.
Qed.
Lemma find_tok_some v t : find_tok v = Some t -> v = firstn t v ++ tok ++ skipn (t + 2) v /\ (t + 2 <= List.length v)%nat /\
  (forall a b, v = a ++ tok ++ b -> (t <= List.length a)%nat).
Proof.
  revert t. induction v as [|x v IH]; intros t H; [discriminate|]. destruct v as [|y v]; [discriminate|].
  change (find_tok (x :: y :: v)) with (if (x =? 37) && (y =? 49) then Some O else match find_tok (y :: v) with Some i => Some (S i) | None => None end) in H.
  destruct ((x =? 37) && (y =? 49)) eqn:C.
  - apply andb_true_iff in C as (C1&C2). apply N.eqb_eq in C1, C2. subst. inversion H; subst. cbn. split; [reflexivity|]. split; [lia|intros; lia].
  - destruct (find_tok (y :: v)) as [i|] eqn:F; [|discriminate]. assert (t = S i) as -> by congruence. destruct (IH i eq_refl) as (E&L&M).
    split; [change (firstn (S i) (x :: y :: v)) with (x :: firstn i (y :: v)); change (skipn (S i + 2) (x :: y :: v)) with (skipn (i + 2) (y :: v)); cbn [app]; f_equal; exact E|].
    split; [cbn [List.length] in *; lia|]. intros [|a0 a] b Eq.
    + exfalso. cbn in Eq. injection Eq as E1 E2 _. subst. discriminate.
    + cbn in Eq. injection Eq as _ Eq. specialize (M a b Eq). cbn. lia.
Qed.
Lemma find_tok_none v : find_tok v = None -> forall a b, v <> a ++ tok ++ b.
Proof.
  induction v as [|x v IH]; intros H a b E; [destruct a; discriminate|]. destruct v as [|y v]; [destruct a as [|? [|? ?]]; discriminate|].
  change (find_tok (x :: y :: v)) with (if (x =? 37) && (y =? 49) then Some O else match find_tok (y :: v) with Some i => Some (S i) | None => None end) in H.
  destruct ((x =? 37) && (y =? 49)) eqn:C; [discriminate|]. destruct (find_tok (y :: v)) eqn:F; [discriminate|].
  destruct a as [|a0 a]; cbn in E; [injection E as E1 E2 _; subst; discriminate|]. injection E as _ E. exact (IH eq_refl a b E).
Qed.
Lemma put_var_at base st d n v : at_ st d n -> (env_len base v < n)%nat ->
  exists st' v', put_var base st v = Some st' /\ subst_first base v v' /\ (List.length v' + 1 = env_len base v)%nat /\ at_ st' (d ++ v' ++ [0]) (n - (List.length v' + 1)).
Proof.
  intros A H. unfold put_var. unfold env_len in *. destruct (find_tok v) as [t|] eqn:F.
  - destruct (find_tok_some v t F) as (E&L&M). destruct st as [m p]. assert (p = List.length d) as -> by (destruct A as (?&_&Q&_); exact Q).
    set (a := firstn t v) in *. set (b := skipn (t + 2) v) in *. assert (LA : List.length a = t) by (unfold a; rewrite firstn_length; lia). assert (LB : List.length b = (List.length v - 2 - t)%nat) by (unfold b; rewrite skipn_length; lia).
    destruct (mem_copy_at m d n v t A ltac:(lia) ltac:(lia)) as (m1&E1&A1). rewrite E1.
    assert (FA : firstn t (v ++ [0]) = a) by (rewrite firstn_app; replace (t - List.length v)%nat with 0%nat by lia; cbn [firstn]; apply app_nil_r). rewrite FA in A1.
    assert (P1 : (List.length d + t)%nat = List.length (d ++ a)) by (rewrite app_length; lia). rewrite P1 in A1 |- *.
    destruct (mem_copy_at m1 _ _ base (List.length base) A1 ltac:(lia) ltac:(lia)) as (m2&E2&A2). rewrite E2.
    assert (FB : firstn (List.length base) (base ++ [0]) = base) by (rewrite firstn_app, Nat.sub_diag, firstn_all; cbn [firstn]; apply app_nil_r). rewrite FB in A2.
    assert (P2 : (List.length (d ++ a) + List.length base)%nat = List.length ((d ++ a) ++ base)) by (rewrite (app_length (d ++ a)); lia). rewrite P2 in A2 |- *.
    destruct (mem_copy_at m2 _ _ b (List.length v - 2 - t + 1) A2 ltac:(lia) ltac:(lia)) as (m3&E3&A3). fold b. rewrite E3.
    exists (m3, (List.length ((d ++ a) ++ base) + (List.length v - 2 - t + 1))%nat), (a ++ base ++ b). split; [reflexivity|]. split.
    { rewrite E. constructor. intros a' b' Q. rewrite LA. apply (M a' b'). rewrite <- Q. exact E. }
    split; [rewrite !app_length; lia|].
    rewrite firstn_all2 in A3 by (rewrite app_length; cbn; lia). rewrite <- !app_assoc in *. replace (n - (List.length (a ++ base ++ b) + 1))%nat with (n - t - List.length base - (List.length v - 2 - t + 1))%nat by (rewrite !app_length; lia). exact A3.
  - destruct (put_plain_at st d n v A H) as (st'&E&A'). exists st', v. split; [exact E|]. split; [constructor; now apply find_tok_none|]. split; [lia|exact A'].
Qed.
Definition cstrs (l : list bytes) : bytes := flat_map (fun v => v ++ [0]) l.
Lemma puts_plain l : forall st d n, at_ st d n -> (list_sum (map (fun h => (List.length h + 1)%nat) l) < n)%nat ->
  exists st', puts put_plain st l = Some st' /\ at_ st' (d ++ cstrs l) (n - list_sum (map (fun h => (List.length h + 1)%nat) l)).
Proof.
  induction l as [|v l IH]; intros st d n A H.
  - exists st. split; [reflexivity|]. cbn. rewrite app_nil_r, Nat.sub_0_r. exact A.
  - cbn [map list_sum fold_right puts] in *. change (fold_right Nat.add 0%nat) with list_sum in *. destruct (put_plain_at st d n v A ltac:(lia)) as (st1&E1&A1). rewrite E1.
    destruct (IH st1 _ _ A1 ltac:(lia)) as (st2&E2&A2). exists st2. split; [exact E2|].
    unfold cstrs in *. cbn [flat_map]. rewrite <- !app_assoc in A2. rewrite <- !app_assoc. rewrite Nat.sub_add_distr. exact A2.
Qed.
Lemma puts_var base l : forall st d n, at_ st d n -> (list_sum (map (env_len base) l) < n)%nat ->
  exists st' l', puts (put_var base) st l = Some st' /\ Forall2 (subst_first base) l l' /\ at_ st' (d ++ cstrs l') (n - list_sum (map (env_len base) l)).
Proof.
  induction l as [|v l IH]; intros st d n A H.
  - exists st, []. split; [reflexivity|]. split; [constructor|]. cbn. rewrite app_nil_r, Nat.sub_0_r. exact A.
  - cbn [map list_sum fold_right puts] in *. change (fold_right Nat.add 0%nat) with list_sum in *. destruct (put_var_at base st d n v A ltac:(lia)) as (st1&v'&E1&S1&L1&A1). rewrite E1.
    destruct (IH st1 _ _ A1 ltac:(lia)) as (st2&l'&E2&F2&A2). exists st2, (v' :: l'). split; [exact E2|]. split; [constructor; auto|].
    unfold cstrs in *. cbn [flat_map]. rewrite <- !app_assoc in A2. rewrite <- !app_assoc. rewrite Nat.sub_add_distr, <- L1. exact A2.
Qed.
Lemma env_block_ok heads base vars : exists vars', Forall2 (subst_first base) vars vars' /\ env_block heads base vars = Some (map Some (cstrs (heads ++ vars') ++ [0])).
Proof.
  unfold env_block. set (n := block_len heads base vars).
  assert (A0 : at_ (repeat None n, 0%nat) [] n) by (exists (repeat None n); repeat split; apply repeat_length).
  unfold block_len in n. destruct (puts_plain heads _ _ _ A0 ltac:(unfold n; lia)) as (st1&E1&A1). rewrite E1.
  destruct (puts_var base vars _ _ _ A1 ltac:(unfold n; lia)) as ([m p]&l'&E2&F2&A2). rewrite E2. exists l'. split; [exact F2|].
  destruct A2 as (tl&Em&Ep&El). cbn [fst snd] in *. subst m p. replace (n - _ - _)%nat with 1%nat in El by (unfold n; lia).
  rewrite <- (app_nil_r tl). rewrite mem_write_at by (cbn; lia). rewrite app_nil_r. unfold cstrs. rewrite flat_map_app. reflexivity.
Qed.
Lemma env_reads_cstrs l : Forall (fun v => v <> [] /\ ~ In 0 v) l -> env_reads (cstrs l ++ [0]) l.
Proof. induction 1 as [|v l (N&Z) F IH]; [constructor|]. unfold cstrs in *. cbn [flat_map]. rewrite <- !app_assoc. cbn [app]. constructor; auto. Qed.
Lemma env_reads_fun b : forall l1 l2, env_reads b l1 -> env_reads b l2 -> l1 = l2.
Proof.
  intros l1 l2 H. revert l2. induction H as [rest|v vs rest NE NZ H IH]; intros l2 H2.
  - remember (0 :: rest) as bb eqn:E. destruct H2 as [r|v vs r N1 N2 _]; [reflexivity|]. destruct v as [|c v]; [congruence|]. cbn in E. injection E as -> _. exfalso. apply N2. now left.
  - remember (v ++ 0 :: rest) as bb eqn:E. destruct H2 as [r|w ws r N1 N2 H3].
    + destruct v as [|c v]; [congruence|]. cbn in E. injection E as E _. subst. exfalso. apply NZ. now left.
    + assert (Q : w = v /\ r = rest).
      { clear -E NZ N2. revert w E N2. induction v as [|c v IHv]; intros [|d w] E N2; cbn in E.
        - injection E as E. auto.
        - injection E as E1 E2. subst. exfalso. apply N2. now left.
        - injection E as E1 E2. subst. exfalso. apply NZ. now left.
        - injection E as E1 E2. subst. destruct (IHv ltac:(intros I; apply NZ; now right) w E2 ltac:(intros I; apply N2; now right)) as (->&->). auto. }
      destruct Q as (->&->). f_equal. auto.
Qed.

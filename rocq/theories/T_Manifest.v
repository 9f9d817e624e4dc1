(** C44, C45: tool manifests.  Model: M_Manifest.v, vocabulary: S_Manifest.v. *)
From Coq Require Import List Arith Bool NArith Lia.
From Verif Require Import M_Bytes M_Stream P_Stream M_Codec P_Codec M_Manifest S_Manifest P_Manifest.
Import ListNotations.
Local Open Scope N_scope.

(** The block is exactly the NUL-terminated fixed variables followed by the NUL-terminated variables with their first %1
    replaced, and one more NUL; every cell is written and no write leaves the allocation. *)
Theorem C44_block_exact : forall windows base tmp vars, exists vars',
  Forall2 (subst_first base) vars vars' /\
  env_block (env_heads windows base tmp) base vars =
    Some (map Some (flat_map (fun v => v ++ [0]) (env_heads windows base tmp ++ vars') ++ [0])).
Proof. intros windows base tmp vars. apply env_block_ok. Qed.
Print Assumptions C44_block_exact.

Lemma subst_ok base v v' : base <> [] -> ~ In 0 base -> v <> [] -> ~ In 0 v -> subst_first base v v' -> v' <> [] /\ ~ In 0 v'.
Proof.
  intros B Z N NZ S. destruct S as [v _|a b _]; [auto|]. split.
  - intros E. apply app_eq_nil in E as (_&E). apply app_eq_nil in E as (E&_). contradiction.
  - rewrite !in_app_iff in *. tauto.
Qed.
(** A process given the block sees exactly these variables, in this order, and no others. *)
Theorem C44_block_read : forall windows base tmp vars, base <> [] -> ~ In 0 base -> ~ In 0 tmp -> Forall (fun v => v <> [] /\ ~ In 0 v) vars ->
  exists vars' block, Forall2 (subst_first base) vars vars' /\ env_block (env_heads windows base tmp) base vars = Some (map Some block) /\
    forall l, env_reads block l <-> l = env_heads windows base tmp ++ vars'.
Proof.
  intros windows base tmp vars B Z T F. destruct (C44_block_exact windows base tmp vars) as (vars'&F2&E). exists vars'. eexists. split; [exact F2|]. split; [exact E|].
  assert (R : env_reads (cstrs (env_heads windows base tmp ++ vars') ++ [0]) (env_heads windows base tmp ++ vars')).
  { apply env_reads_cstrs. apply Forall_app. split.
    - unfold env_heads. constructor; [split; [discriminate|rewrite in_app_iff; intros [H|H]; [cbn in H; lia|contradiction]]|].
      destruct windows; [|constructor]. constructor; [split; [discriminate|rewrite in_app_iff; intros [H|H]; [cbn in H; lia|contradiction]]|].
      constructor; [split; [discriminate|cbn; lia]|constructor].
    - clear E. induction F2 as [|x y l l' S F2 IH]; [constructor|]. inversion F as [|? ? (N1&N2) F']; subst. constructor; [apply (subst_ok base x y); auto|apply IH; exact F']. }
  intros l. split; [intros H; eapply env_reads_fun; eauto|intros ->; exact R].
Qed.
Print Assumptions C44_block_read.
(** INCLUDE=%1i and TMPDIR=/t with the tools in /w *)
Example C44_case : Forall (fun v => v <> [] /\ ~ In 0 v) [[73;61;37;49;105]; [84;61;47;116]] /\
  env_block (env_heads false [47;119] []) [47;119] [[73;61;37;49;105]; [84;61;47;116]] =
    Some (map Some ([80;65;84;72;61;47;119;0] ++ [73;61;47;119;105;0] ++ [84;61;47;116;0] ++ [0])).
Proof. split; [|reflexivity]. repeat constructor; try discriminate; cbn; lia. Qed.

(** A manifest is read back as it was written, whatever follows it in the message. *)
Theorem C45_round_trip : forall m rest, man_ok m -> exists s, man_read (man_id m) (ks_new (man_write m ++ rest)) = Some (Some m, s).
Proof. intros m rest OK. destruct (man_round m rest _ OK (views_new _)) as (s&E&_). eauto. Qed.
Print Assumptions C45_round_trip.
(** Truncated manifests are rejected, except when the cut falls in the four bytes counting the environment variables: then
    the manifest may be accepted with all its files but no variables (the full claim fails: next theorem). *)
Theorem C45_truncated_partial : forall m k, man_ok m -> (k < List.length (man_write m))%nat ->
  exists r s, man_read (man_id m) (ks_new (firstn k (man_write m))) = Some (r, s) /\
    (r = None \/ (r = Some (mkMan (man_id m) (man_root m) (man_files m) []) /\ (List.length (man_head m) <= k < List.length (man_head m) + 4)%nat)).
Proof.
  intros m k OK K. assert (NQ : skipn k (man_write m) <> []).
  { intros E. apply (f_equal (@List.length N)) in E. rewrite skipn_length in E. change (List.length (@nil N)) with 0%nat in E. lia. }
  destruct (man_cut m (firstn k (man_write m)) (skipn k (man_write m)) (ks_new (firstn k (man_write m))) OK) as [(s&E)|(B&s&E)].
  - symmetry. apply firstn_skipn.
  - exact NQ.
  - apply views_new.
  - exists None, s. auto.
  - exists (Some (mkMan (man_id m) (man_root m) (man_files m) [])), s. split; [exact E|]. right. split; [reflexivity|]. assert (LK : List.length (firstn k (man_write m)) = k) by (apply firstn_length_le; apply Nat.lt_le_incl; exact K). rewrite LK in B. exact B.
Qed.
Print Assumptions C45_truncated_partial.
Definition ex_man : manifest := mkMan 77 [67;58;92] [mkMF [67;58;92;97] 5 6 7; mkMF [100] 1 2 0] [[80;61;49]].
Lemma ex_man_ok : man_ok ex_man.
Proof. unfold man_ok, ex_man. cbn [man_id man_root man_files man_env]. repeat split; try discriminate; try (cbn; lia); repeat constructor; unfold mf_ok; cbn; lia. Qed.
(** A truncated manifest that is accepted: the variables are silently lost. *)
Theorem C45_truncated_refuted : exists m k r s, man_ok m /\ (k < List.length (man_write m))%nat /\ man_env m <> [] /\
  man_read (man_id m) (ks_new (firstn k (man_write m))) = Some (Some r, s) /\ man_env r = [].
Proof.
  exists ex_man, (List.length (man_head ex_man)). eexists. eexists. split; [exact ex_man_ok|]. split; [vm_compute; lia|]. split; [discriminate|]. split; vm_compute; reflexivity.
Qed.
Print Assumptions C45_truncated_refuted.
(** Whatever bytes arrive, reading them stays inside the message, and an accepted manifest has the identifier asked for,
    at least one file, no zero stamp or hash, and no string with an embedded NUL. *)
Theorem C45_any_bytes : forall id b, exists r s, man_read id (ks_new b) = Some (r, s) /\
  (forall m, r = Some m -> man_id m = id /\ ~ In 0 (man_root m) /\ man_files m <> [] /\
     Forall (fun f => ~ In 0 (mf_name f) /\ mf_stamp f <> 0 /\ mf_hash f <> 0) (man_files m) /\ Forall (fun v => ~ In 0 v) (man_env m)).
Proof.
  intros id b. destruct (man_read_safe id (ks_new b)) as (r&s&E&_); [unfold ks_ok; cbn; lia|]. exists r, s. split; [exact E|]. intros m ->. eapply man_read_sane; eauto.
Qed.
Print Assumptions C45_any_bytes.
Example C45_case : man_ok ex_man /\ (List.length (man_write ex_man) = 75)%nat.
Proof. split; [exact ex_man_ok|]. vm_compute. reflexivity. Qed.

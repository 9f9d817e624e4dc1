(** C27: unity generation covers every source exactly once. *)
From Coq Require Import List Arith ZArith NArith Bool Ascii String Permutation Lia.
From Verif Require T_Path.
From Verif Require Import M_Path M_Names M_Sort S_Sort T_Sort M_Unity S_Unity P_Unity.
Import ListNotations.

(** The precompiled header included first, if there is one. *)
Definition header (st : settings) : list str := match pch_name st with [] => [] | n => [n] end.

(** Names the generated files can mention. *)
Definition mentionable (st : settings) (found : list source) : Prop :=
  (pch_name st <> [] -> plain (pch_name st)) /\ (forall f, In f found -> plain (shown st (sname f))).

Lemma build_steps p signed iso num st found : 0 < num ->
  exists files, Permutation found files /\ (strict_weak (source_lt p signed) -> ordered (source_lt p signed) files) /\
    shell_sort (source_lt p signed) found = Some files /\
    let parts := allocation num (filter (fun f => negb (forced p iso f)) files) in
    let w := write_all st 1 parts in
    do_build p signed iso num st found = Some {| written := written w; to_compile := to_compile w; on_their_own := filter (forced p iso) files ++ on_their_own w |} /\
    List.length parts = num /\ List.concat parts = filter (fun f => negb (forced p iso f)) files.
Proof.
  intros Hn. destruct (C26_sort_sorts _ (source_lt p signed) found) as (files & E & P & O). exists files. split; [exact P|]. split; [exact O|]. split; [exact E|].
  unfold do_build. rewrite E, filter_force_spec. split; [reflexivity|]. apply distribute_spec. exact Hn.
Qed.

(** Every input file is compiled exactly once: either on its own, or in exactly one of the unity files compiled, which includes it; and a
    unity file that is compiled is not empty.  Whatever the number of files and of unity files, and whatever binary32 rounding does to the
    share of each. *)
Theorem C27_compiled_exactly_once : forall p signed to_isolate num st found,
  0 < num -> In "*"%char (output st) -> mentionable st found ->
  exists r in_unity, do_build p signed to_isolate num st found = Some r /\
    Permutation found (on_their_own r ++ List.concat in_unity) /\
    Forall2 (fun name sources => exists text, content (written r) name = Some text /\
               includes text = header st ++ map (fun f => shown st (sname f)) sources /\ sources <> []) (to_compile r) in_unity /\
    NoDup (to_compile r) /\
    List.length (written r) = num /\
    (no_unity st = true -> in_unity = []).
Proof.
  intros p signed iso num st found Hn Hs [HP HF].
  destruct (build_steps p signed iso num st found Hn) as (files & P & _ & _ & E & Ln & Lc).
  set (parts := allocation num (filter (fun f => negb (forced p iso f)) files)) in *.
  assert (HF' : forall f, In f (List.concat parts) -> plain (shown st (sname f))).
  { intros f Hf. apply HF. rewrite Lc in Hf. apply filter_In in Hf as [Hf _]. eapply Permutation_in; [apply Permutation_sym; exact P|exact Hf]. }
  destruct (write_all_spec st HP parts 1 HF') as (ls & F & PW & Z).
  eexists. exists ls. split; [exact E|]. cbn [on_their_own to_compile written]. split; [|split; [|split; [|split]]].
  - etransitivity; [exact P|]. etransitivity; [apply (partition_perm (forced p iso))|]. rewrite <- Lc, <- app_assoc. apply Permutation_app_head. exact PW.
  - eapply Forall2_imp; [|exact F]. intros n l (t & I & R). exists t. split; [|exact R]. apply content_in; [apply written_nodup; exact Hs|exact I].
  - apply to_compile_nodup. exact Hs.
  - rewrite <- Ln. generalize parts. generalize 1. clear. intros i l. revert i. induction l as [|a l IH]; intros i; cbn; [reflexivity|]. f_equal. apply IH.
  - exact Z.
Qed.
Print Assumptions C27_compiled_exactly_once.

(** The unity files, in order, mention (in a live or commented out include line) exactly the files not isolated by name, in sorted order,
    in contiguous blocks. *)
Theorem C27_blocks_in_order : forall p signed to_isolate num st found,
  0 < num -> mentionable st found -> (forall f, In f found -> ~ In nul (sname f)) ->
  exists r blocks, do_build p signed to_isolate num st found = Some r /\
    map (fun x => mentions (snd x)) (written r) = map (fun b => header st ++ map (fun f => shown st (sname f)) b) blocks /\
    Permutation (List.concat blocks) (filter (fun f => negb (forced p to_isolate f)) found) /\
    ordered (source_lt p signed) (List.concat blocks).
Proof.
  intros p signed iso num st found Hn [HP HF] HN.
  destruct (build_steps p signed iso num st found Hn) as (files & P & _ & ES & E & Ln & Lc).
  set (parts := allocation num (filter (fun f => negb (forced p iso f)) files)) in *.
  assert (HF' : forall f, In f (List.concat parts) -> plain (shown st (sname f))).
  { intros f Hf. apply HF. rewrite Lc in Hf. apply filter_In in Hf as [Hf _]. eapply Permutation_in; [apply Permutation_sym; exact P|exact Hf]. }
  eexists. exists parts. split; [exact E|]. cbn [written]. split; [apply mentions_all; assumption|]. rewrite Lc. split.
  - assert (PF : forall (b : source -> bool) l l', Permutation l l' -> Permutation (filter b l) (filter b l')).
    { clear. intros b l l' H. induction H as [|x l l' H IH|x y l|l l' l'' H1 IH1 H2 IH2]; cbn [filter].
      - constructor.
      - destruct (b x); [constructor|]; exact IH.
      - destruct (b x), (b y); try apply Permutation_refl. apply perm_swap.
      - etransitivity; eauto. }
    apply PF. apply Permutation_sym. exact P.
  - (* the order used by the sort is the key order on the names present *)
    set (lt' := fun a b : source => lexb (key p signed (sname a)) (key p signed (sname b))).
    assert (SW : strict_weak lt').
    { split; unfold lt'.
      - intros x. apply lexb_irrefl.
      - intros x y z. apply lexb_trans.
      - intros x y z H1 H2 H3 H4. rewrite (lexb_total _ _ H1 H2). auto. }
    assert (AG : forall x y, ~ In nul (sname x) -> ~ In nul (sname y) -> source_lt p signed x y = lt' x y) by (intros x y Hx Hy; apply name_lt_key; assumption).
    assert (FA : Forall (fun f => ~ In nul (sname f)) found) by (apply Forall_forall; exact HN).
    unfold shell_sort in ES. rewrite (gaps_ext (fun f => ~ In nul (sname f)) _ lt' AG ciura found FA) in ES.
    destruct (C26_sort_sorts _ lt' found) as (files2 & E2 & _ & O2). unfold shell_sort in E2. rewrite E2 in ES. injection ES as ->. specialize (O2 SW).
    assert (OF : forall l, ordered lt' l -> (forall f, In f l -> ~ In nul (sname f)) -> forall b, ordered (source_lt p signed) (filter b l)).
    { clear - AG. intros l O HN b i j x y Hij Hx Hy.
      assert (Ix : In x l) by (apply nth_error_In in Hx; apply filter_In in Hx; tauto). assert (Iy : In y l) by (apply nth_error_In in Hy; apply filter_In in Hy; tauto).
      rewrite AG by auto. clear HN AG Ix Iy. revert i j Hij Hx Hy. induction l as [|z l IH]; intros i j Hij Hx Hy; [destruct i; discriminate|].
      cbn [filter] in Hx, Hy. destruct (b z).
      - destruct j as [|j]; [lia|]. cbn in Hy. destruct i as [|i].
        + cbn in Hx. injection Hx as <-. apply (ordered_head lt' z l); [exact O|]. apply nth_error_In in Hy. apply filter_In in Hy. tauto.
        + cbn in Hx. apply (IH (ordered_tail _ _ _ O) i j); [lia|exact Hx|exact Hy].
      - apply (IH (ordered_tail _ _ _ O) i j Hij Hx Hy). }
    apply OF; [exact O2|]. intros f Hf. apply HN. eapply Permutation_in; [apply Permutation_sym; exact P|exact Hf].
Qed.
Print Assumptions C27_blocks_in_order.

(** The order is a total order up to case. *)
Theorem C27_order_of_names : forall p signed a b c, ~ In nul a -> ~ In nul b -> ~ In nul c ->
  name_lt p signed a a = false /\
  (name_lt p signed a b = true -> name_lt p signed b c = true -> name_lt p signed a c = true) /\
  (name_lt p signed a b = false -> name_lt p signed b a = false -> same_but_case a b).
Proof. intros p signed a b c Ha Hb Hc. apply name_lt_weak_on; assumption. Qed.
Print Assumptions C27_order_of_names.

(** The result does not depend on the order in which the file system lists the files. *)
Theorem C27_order_of_listing : forall p signed to_isolate num st found found',
  Permutation found found' -> (forall f, In f found -> ~ In nul (sname f)) ->
  (forall f g, In f found -> In g found -> same_but_case (sname f) (sname g) -> f = g) ->
  do_build p signed to_isolate num st found = do_build p signed to_isolate num st found'.
Proof.
  intros p signed iso num st found found' P HN HU. unfold do_build.
  set (lt' := fun a b : source => lexb (key p signed (sname a)) (key p signed (sname b))).
  assert (SW : strict_weak lt').
  { split; unfold lt'.
    - intros x. apply lexb_irrefl.
    - intros x y z. apply lexb_trans.
    - intros x y z H1 H2 H3 H4. rewrite (lexb_total _ _ H1 H2). auto. }
  assert (AG : forall x y, ~ In nul (sname x) -> ~ In nul (sname y) -> source_lt p signed x y = lt' x y) by (intros x y Hx Hy; apply name_lt_key; assumption).
  assert (E : shell_sort (source_lt p signed) found = shell_sort (source_lt p signed) found').
  { unfold shell_sort. rewrite (gaps_ext (fun f => ~ In nul (sname f)) _ lt' AG ciura found), (gaps_ext (fun f => ~ In nul (sname f)) _ lt' AG ciura found').
    2:{ apply Forall_forall. intros f Hf. apply HN. eapply Permutation_in; [apply Permutation_sym; exact P|exact Hf]. }
    2:{ apply Forall_forall. exact HN. }
    destruct (C26_sort_sorts _ lt' found) as (l & E1 & P1 & O1). destruct (C26_sort_sorts _ lt' found') as (l' & E2 & P2 & O2).
    unfold shell_sort in E1, E2. rewrite E1, E2. f_equal. apply (ordered_unique lt'); auto.
    - etransitivity; [apply Permutation_sym; exact P1|]. etransitivity; [exact P|exact P2].
    - intros x y Hx Hy H1 H2. apply HU; [eapply Permutation_in; [apply Permutation_sym; exact P1|exact Hx]|eapply Permutation_in; [apply Permutation_sym; exact P1|exact Hy]|].
      apply (key_inj p signed). apply lexb_total; assumption. }
  rewrite E. reflexivity.
Qed.
Print Assumptions C27_order_of_listing.

(** Isolating files, by whatever rule, or asking for no unity, moves no file from one unity file to another. *)
Theorem C27_isolation_moves_nothing : forall p signed to_isolate num st st' found,
  0 < num -> mentionable st found -> pch_name st = pch_name st' -> shown st = shown st' ->
  exists r r', do_build p signed to_isolate num st found = Some r /\ do_build p signed to_isolate num st' found = Some r' /\
    map (fun x => mentions (snd x)) (written r) = map (fun x => mentions (snd x)) (written r').
Proof.
  intros p signed iso num st st' found Hn [HP HF] E1 E2.
  destruct (build_steps p signed iso num st found Hn) as (files & P & _ & ES & E & Ln & Lc).
  destruct (build_steps p signed iso num st' found Hn) as (files' & P' & _ & ES' & E' & Ln' & Lc').
  assert (EF : files = files') by congruence. subst files'. 
  eexists. eexists. split; [exact E|]. split; [exact E'|]. cbn [written].
  assert (HF1 : forall f, In f (List.concat (allocation num (filter (fun f => negb (forced p iso f)) files))) -> plain (shown st (sname f))).
  { intros f Hf. apply HF. rewrite Lc in Hf. apply filter_In in Hf as [Hf _]. eapply Permutation_in; [apply Permutation_sym; exact P|exact Hf]. }
  rewrite mentions_all; [|exact HP|exact HF1]. rewrite mentions_all; [|rewrite <- E1; exact HP|rewrite <- E2; exact HF1].
  unfold pch_list. rewrite <- E1, <- E2. reflexivity.
Qed.
Print Assumptions C27_isolation_moves_nothing.

(** -nounity changes no unity file, so that going back and forth rebuilds nothing in them. *)
Theorem C27_nounity_same_texts : forall p signed to_isolate num st b found r r',
  do_build p signed to_isolate num st found = Some r ->
  do_build p signed to_isolate num {| isolate_writable := isolate_writable st; max_isolated := max_isolated st; isolate_list := isolate_list st; no_unity := b;
    pch_name := pch_name st; shown := shown st; linux := linux st; output := output st |} found = Some r' -> written r = written r'.
Proof.
  intros p signed iso num st b found r r'. unfold do_build. destruct (shell_sort _ _) as [files|]; [|discriminate]. destruct (filter_force_isolated p iso files) as [[fs fo]|]; [|discriminate].
  intros H H'. injection H as <-. injection H' as <-. cbn [written]. generalize (allocation num fs). generalize 1. intros i l. revert i.
  induction l as [|a l IH]; intros i; cbn [write_all written]; [reflexivity|]. f_equal. apply IH.
Qed.
Print Assumptions C27_nounity_same_texts.

(** The source file of a precompiled header X.h is X.cpp, whatever directory it is found in. *)
Definition pch_source (p : plat) (pch n : str) : Prop :=
  exists base h, pch = base ++ [h] /\ (h = "h"%char \/ h = "H"%char) /\ (exists b, base = b ++ ["."%char]) /\
    (n = base ++ L "cpp" \/ exists dir, n = dir ++ native p :: base ++ L "cpp").
(** What a dependency of the unity contributes. *)
Definition provides (p : plat) (pch list_file : str) (d : dep) (n : str) : Prop :=
  match d with
  | DirList _ fs => In n (map fst fs) /\ ~ pch_source p pch n
  | ObjList fs => In n fs
  | AFile name _ => n = name /\ name <> list_file
  end.
Lemma pch_cpp_spec p pch n : (match pch_cpp pch with [] => true | _ => negb (path_ends_with_file p n (pch_cpp pch)) end) = true <-> ~ pch_source p pch n.
Proof.
  unfold pch_cpp, ends_with_h. destruct (rev pch) as [|h r] eqn:E.
  { split; [|reflexivity]. intros _ (base & h & -> & _). rewrite rev_app_distr in E. discriminate. }
  assert (Ep : pch = rev r ++ [h]) by (rewrite <- (rev_involutive pch), E; reflexivity). destruct r as [|d r].
  { split; [|reflexivity]. intros _ (base & h' & E1 & _ & (b & ->) & _). rewrite E1, !rev_app_distr in E. discriminate. }
  assert (Hh : Ascii.eqb (lower_char h) "h" = true <-> h = "h"%char \/ h = "H"%char).
  { rewrite Ascii.eqb_eq. split; [|intros [->| ->]; reflexivity]. destruct h as [[] [] [] [] [] [] [] []]; vm_compute; intros K; try discriminate; auto. }
  destruct (Ascii.eqb (lower_char h) "h" && Ascii.eqb d ".") eqn:B.
  - apply andb_true_iff in B as [B1 B2]. apply Hh in B1. apply Ascii.eqb_eq in B2. subst d.
    assert (F : firstn (List.length pch - 1) pch = rev ("."%char :: r)).
    { rewrite Ep, app_length. cbn [List.length]. replace (List.length (rev ("."%char :: r)) + 1 - 1) with (List.length (rev ("."%char :: r))) by lia.
      rewrite firstn_app, firstn_all, Nat.sub_diag. apply app_nil_r. }
    rewrite F. cbn [rev]. remember ((rev r ++ ["."%char]) ++ L "cpp") as x eqn:Ex. assert (Nx : x <> []) by (subst x; destruct (rev r); discriminate).
    replace (match x with [] => true | _ :: _ => negb (path_ends_with_file p n x) end) with (negb (path_ends_with_file p n x)) by (destruct x; [congruence|reflexivity]).
    rewrite negb_true_iff, <- not_true_iff_false, Verif.T_Path.C49_whole_name_only. apply not_iff_compat. split.
    + intros H. exists (rev r ++ ["."%char]), h. split; [exact Ep|]. split; [exact B1|]. split; [eauto|]. rewrite <- Ex. exact H.
    + intros (base & h' & E1 & _ & _ & H). rewrite Ep in E1. cbn [rev] in E1. apply app_inj_tail in E1 as [<- _]. rewrite <- Ex in H. exact H.
  - split; [|reflexivity]. intros _ (base & h' & E1 & Hh' & (b & ->) & _). rewrite E1, !rev_app_distr in E. cbn in E. injection E as <- <- _.
    apply Hh in Hh'. rewrite Hh' in B. discriminate.
Qed.

(** The input files are those of the directories, but for the source of the precompiled header, those of the object lists, and the ones
    given by name; a file given by name that is missing is an error, and the only one. *)
Theorem C27_inputs : forall p pch list_file deps,
  (forall l, get_files p pch list_file deps = Some l -> forall n, In n (map sname l) <-> exists d, In d deps /\ provides p pch list_file d n) /\
  (get_files p pch list_file deps = None <-> exists n, In (AFile n None) deps /\ n <> list_file).
Proof.
  intros p pch list_file. induction deps as [|d deps [I1 I2]].
  - split.
    + intros l H. injection H as <-. intros n. split; [intros []|intros (d & [] & _)].
    + split; [discriminate|intros (n & [] & _)].
  - cbn [get_files]. destruct (get_files p pch list_file deps) as [l|] eqn:E.
    + assert (Nm : ~ exists n, In (AFile n None) deps /\ n <> list_file) by (intros K; apply I2 in K; discriminate).
      assert (I3 := I1 l eq_refl). clear I1 I2.
      assert (Split : forall n, (exists d0, In d0 (d :: deps) /\ provides p pch list_file d0 n) <-> provides p pch list_file d n \/ (exists d0, In d0 deps /\ provides p pch list_file d0 n)).
      { intros n. split; [intros (d0 & [<-|H] & K); eauto|intros [K|(d0 & H & K)]; [exists d|exists d0]; cbn; auto]. }
      destruct d as [path fs|fs|name info].
      * split; [|split; [discriminate|intros (n & [H|H] & K); [discriminate|exfalso; apply Nm; eauto]]].
        intros l' H. injection H as <-. intros n. rewrite Split, map_app, in_app_iff, I3. cbn [provides]. rewrite map_map. cbn [sname].
        apply or_iff_compat_r. rewrite in_map_iff. split.
        -- intros ((n' & ro) & E1 & H). cbn in E1. subst n'. apply filter_In in H as [H1 H2]. cbn [fst] in H2. apply pch_cpp_spec in H2. split; [|exact H2].
           apply in_map_iff. exists (n, ro). auto.
        -- intros [H1 H2]. apply in_map_iff in H1 as ((n' & ro) & E1 & H1). cbn in E1. subst n'. exists (n, ro). split; [reflexivity|]. apply filter_In. split; [exact H1|].
           cbn [fst]. now apply pch_cpp_spec.
      * split; [|split; [discriminate|intros (n & [H|H] & K); [discriminate|exfalso; apply Nm; eauto]]].
        intros l' H. injection H as <-. intros n. rewrite Split, map_app, in_app_iff, I3. cbn [provides]. rewrite map_map. cbn [sname]. rewrite map_id. reflexivity.
      * destruct (list_eq_dec ascii_dec name list_file) as [->|Nn].
        -- split; [|split; [discriminate|intros (n & [H|H] & K); [injection H as -> _; congruence|exfalso; apply Nm; eauto]]].
           intros l' H. injection H as <-. intros n. rewrite Split, I3. cbn [provides]. tauto.
        -- destruct info as [ro|].
           ++ split; [|split; [discriminate|intros (n & [H|H] & K); [discriminate|exfalso; apply Nm; eauto]]].
              intros l' H. injection H as <-. intros n. rewrite Split. cbn [map sname In provides]. rewrite I3. intuition congruence.
           ++ split; [discriminate|]. split; [|reflexivity]. intros _. exists name. cbn. auto.
    + split; [discriminate|]. split; [|reflexivity]. intros _. destruct I2 as [I2 _]. destruct (I2 eq_refl) as (n & H & K). exists n. cbn. auto.
Qed.
Print Assumptions C27_inputs.

(** A file that asks to be compiled on its own: it is writable and that is an option, or it is in the list of modified files. *)
Definition asks (st : settings) (f : source) : Prop := (isolate_writable st = true /\ read_only f = false) \/ In (sname f) (isolate_list st).
Lemma flagged_asks st f : flagged st f = true <-> asks st f.
Proof.
  unfold flagged, asks. rewrite orb_true_iff, andb_true_iff, negb_true_iff, existsb_exists. apply or_iff_compat_l. split.
  - intros (n & H & K). destruct (list_eq_dec ascii_dec n (sname f)) as [<-|]; [exact H|discriminate].
  - intros H. exists (sname f). split; [exact H|]. destruct (list_eq_dec ascii_dec (sname f) (sname f)); congruence.
Qed.
Lemma few_flagged st b k : List.length (filter (flagged st) b) <= k <-> (forall l r, Permutation b (l ++ r) -> (forall f, In f l -> asks st f) -> List.length l <= k).
Proof.
  split.
  - intros H l r P A. etransitivity; [|exact H].
    assert (PF : Permutation (filter (flagged st) b) (filter (flagged st) (l ++ r))).
    { clear - P. induction P as [|x l0 l' H IH|x y l0|l0 l' l'' H1 IH1 H2 IH2]; cbn [filter].
      - constructor.
      - destruct (flagged st x); [constructor|]; exact IH.
      - destruct (flagged st x), (flagged st y); try apply Permutation_refl. apply perm_swap.
      - etransitivity; eauto. }
    rewrite (Permutation_length PF). rewrite filter_app, app_length.
    assert (F : filter (flagged st) l = l).
    { clear - A. induction l as [|f l IH]; cbn; [reflexivity|]. assert (K : flagged st f = true) by (apply flagged_asks, A; now left). rewrite K. f_equal. apply IH. intros g Hg. apply A. now right. }
    rewrite F. lia.
  - intros H. apply (H _ (filter (fun f => negb (flagged st f)) b)); [apply partition_perm|]. intros f Hf. apply filter_In in Hf as [_ Hf]. now apply flagged_asks.
Qed.
(** The files compiled on their own: those isolated by name; all of them when there is to be no unity; and those of a unity file that ask
    for it, unless more than the limit do in that unity file. *)
Theorem C27_isolated : forall p signed to_isolate num st found,
  0 < num -> mentionable st found ->
  exists r blocks, do_build p signed to_isolate num st found = Some r /\
    map (fun x => mentions (snd x)) (written r) = map (fun b => header st ++ map (fun f => shown st (sname f)) b) blocks /\
    Permutation (List.concat blocks) (filter (fun f => negb (forced p to_isolate f)) found) /\
    forall f, In f (on_their_own r) <->
      (In f found /\ exists n, In n to_isolate /\ (sname f = n \/ exists dir, sname f = dir ++ native p :: n)) \/
      (exists b, In b blocks /\ In f b /\
         (no_unity st = true \/
          (asks st f /\ (max_isolated st = 0 \/
             forall l rest, Permutation b (l ++ rest) -> (forall g, In g l -> asks st g) -> List.length l <= max_isolated st)))).
Proof.
  intros p signed iso num st found Hn [HP HF].
  destruct (build_steps p signed iso num st found Hn) as (files & P & _ & ES & E & Ln & Lc).
  set (parts := allocation num (filter (fun f => negb (forced p iso f)) files)) in *.
  assert (HF' : forall f, In f (List.concat parts) -> plain (shown st (sname f))).
  { intros f Hf. apply HF. rewrite Lc in Hf. apply filter_In in Hf as [Hf _]. eapply Permutation_in; [apply Permutation_sym; exact P|exact Hf]. }
  eexists. exists parts. split; [exact E|]. cbn [written]. split; [apply mentions_all; assumption|]. rewrite Lc. split.
  - assert (PF : forall (b : source -> bool) l l', Permutation l l' -> Permutation (filter b l) (filter b l')).
    { clear. intros b l l' H. induction H as [|x l l' H IH|x y l|l l' l'' H1 IH1 H2 IH2]; cbn [filter].
      - constructor.
      - destruct (b x); [constructor|]; exact IH.
      - destruct (b x), (b y); try apply Permutation_refl. apply perm_swap.
      - etransitivity; eauto. }
    apply PF. apply Permutation_sym. exact P.
  - intros f. cbn [on_their_own]. rewrite in_app_iff, filter_In.
    assert (Fo : forced p iso f = true <-> exists n, In n iso /\ (sname f = n \/ exists dir, sname f = dir ++ native p :: n)).
    { unfold forced. rewrite existsb_exists. split; intros (n & H1 & H2); exists n; (split; [exact H1|]); now apply Verif.T_Path.C49_whole_name_only. }
    rewrite Fo. assert (Pi : In f files <-> In f found) by (split; apply Permutation_in; [apply Permutation_sym|]; exact P). rewrite Pi. apply or_iff_compat_l.
    assert (W : forall i l, In f (on_their_own (write_all st i l)) <-> exists b, In b l /\ In f (alone st b)).
    { intros i l. revert i. induction l as [|b l IH]; intros i; cbn [write_all on_their_own].
      - split; [intros []|intros (b & [] & _)].
      - rewrite in_app_iff, IH. split; [intros [H|(b' & H1 & H2)]; [exists b|exists b']; cbn; auto|intros (b' & [<-|H1] & H2); eauto]. }
    rewrite W. split; intros (b & H1 & H2); exists b; (split; [exact H1|]).
    + unfold alone in H2. apply filter_In in H2 as [H2 H3]. split; [exact H2|]. apply orb_true_iff in H3 as [H3|H3]; [right|left; exact H3].
      unfold isolated_here in H3. apply andb_true_iff in H3 as [H3 H4]. split; [now apply flagged_asks|]. apply orb_true_iff in H3 as [H3|H3]; [left; now apply Nat.eqb_eq|right].
      apply few_flagged. now apply Nat.leb_le.
    + destruct H2 as [H2 H3]. unfold alone. apply filter_In. split; [exact H2|]. apply orb_true_iff. destruct H3 as [H3|[H3 H4]]; [right; exact H3|left].
      unfold isolated_here. apply andb_true_iff. split; [|now apply flagged_asks]. apply orb_true_iff. destruct H4 as [H4|H4]; [left; now apply Nat.eqb_eq|right].
      apply Nat.leb_le. now apply few_flagged.
Qed.
Print Assumptions C27_isolated.

(** Without a '*' in the output pattern (which nothing checks) all unity files have the same name: the sources in all but the last are
    compiled nowhere. *)
Definition plainst (n : string) : source := {| sname := L n; read_only := true; origin := [] |}.
Definition st0 (out : string) : settings := {| isolate_writable := true; max_isolated := 0; isolate_list := [L "/s/c.cpp"]; no_unity := false; pch_name := [];
  shown := fun n => n; linux := true; output := L out |}.
Theorem C27_pattern_without_star_refuted : exists p signed iso num st found r, mentionable st found /\
  do_build p signed iso num st found = Some r /\ on_their_own r = [] /\
  exists f, In f found /\ forall n, In n (to_compile r) -> forall t, content (written r) n = Some t -> ~ In (sname f) (includes t).
Proof.
  exists posix, true, [], 2, (st0 "/u/Unity.cpp"), [plainst "/s/a.cpp"; plainst "/s/b.cpp"].
  eexists. split.
  { split; [intros K; contradiction|]. intros f [<-|[<-|[]]]; split; intros K; cbn in K; repeat (destruct K as [K|K]; [discriminate|]); exact K. }
  split; [vm_compute; reflexivity|]. split; [reflexivity|]. exists (plainst "/s/a.cpp"). split; [left; reflexivity|].
  intros n Hn t Ht. cbn in Hn. destruct Hn as [<-|[<-|[]]]; vm_compute in Ht; injection Ht as <-; vm_compute; intros [K|[]]; discriminate.
Qed.
Print Assumptions C27_pattern_without_star_refuted.

Example C27_case :
  let found := [plainst "/s/e.cpp"; {| sname := L "/s/d.cpp"; read_only := false; origin := [] |}; plainst "/s/c.cpp"; plainst "/s/B.cpp"; plainst "/s/a.cpp"] in
  exists r, do_build posix true [L "e.cpp"] 2 (st0 "/u/Unity*.cpp") found = Some r /\
    map (fun x => includes (snd x)) (written r) = [[L "/s/a.cpp"; L "/s/B.cpp"]; []] /\
    to_compile r = [L "/u/Unity1.cpp"] /\ map sname (on_their_own r) = [L "/s/e.cpp"; L "/s/c.cpp"; L "/s/d.cpp"].
Proof. eexists. split; [vm_compute; reflexivity|]. vm_compute. repeat split. Qed.

(** C17 path cleaning, C19 relative paths, C47 file extensions. *)
From Coq Require Import List Arith Bool Ascii String NArith Lia.
From Verif Require Import M_Path S_Path P_Path P_Path2 P_Path3.
Import ListNotations.

Lemma relative_not_full p name : p = posix \/ p = win -> relative_name p name -> is_full p name = false /\
  (windows p = false -> match name with c :: _ => is_slash p c = false | [] => True end).
Proof.
  intros [->| ->]; unfold relative_name, is_full; cbn [windows posix win].
  - intros H. destruct name as [|c r]; [split; auto|]. destruct (H c eq_refl) as [A B]. split.
    + now apply Ascii.eqb_neq.
    + intros _. destruct (is_slash posix c) eqn:E; auto. apply is_slash_iff in E. tauto.
  - intros [A B]. split; [|discriminate]. unfold begins_double. destruct name as [|a [|b r]]; auto.
    cbn in A, B. apply orb_false_iff. split.
    + apply Ascii.eqb_neq. congruence.
    + apply andb_false_iff. destruct (Ascii.eqb_spec a (native win)) as [->|]; auto.
      destruct (Ascii.eqb_spec b (native win)) as [->|]; auto. exfalso. apply B. reflexivity.
Qed.

(** Cleaning an absolute path: the result is clean and leads to the same place. No write leaves the output
    buffer (a write outside would give [None]). *)
Theorem C17_clean_absolute : forall p, p = posix \/ p = win -> forall wd name make_full,
  absolute p name -> no_nul name -> List.length name < N.to_nat 65536 ->
  exists r, clean_path p wd name make_full = Some r /\ clean p r /\ location p r = location p name.
Proof.
  intros p WP wd name mk AB NZ LB. destruct (absolute_shape p WP name AB) as (d&x&r&->&D&SX&W).
  destruct (clean_abs p WP wd d x r mk D SX W NZ LB) as (st&part&E&G&GP&WK&_).
  exists (d ++ native p :: render p st ++ part). split; auto.
  destruct (decomp_clean p WP d st part D G GP) as [C LO]. split; auto. rewrite LO.
  unfold location. destruct (skip_drive p d (x :: r) D) as [SK DR]. rewrite SK, DR.
  rewrite comp_cons_slash by auto. now rewrite <- WK.
Qed.
Print Assumptions C17_clean_absolute.

(** Cleaning a relative path: the result is clean, absolute, and leads where walking the path from the
    working directory leads. *)
Theorem C17_clean_relative_to_working_dir : forall p, p = posix \/ p = win -> forall wd name,
  wd <> [] -> clean p (wd ++ [native p]) -> no_nul wd -> relative_name p name -> no_nul name ->
  List.length wd + 1 + List.length name < N.to_nat 65536 ->
  exists r, clean_path p wd name true = Some r /\ clean p r /\
    location p r = (drive p (wd ++ [native p]), walk (snd (location p (wd ++ [native p]))) (components p name)).
Proof.
  intros p WP wd name NW CW NZW RN NZ LB. destruct (relative_not_full p name WP RN) as [NF HS].
  assert (NZ2 : nonul (wd ++ [native p])).
  { intros H. apply in_app_iff in H. destruct H as [H|[H|[]]]; auto. pose proof (slash_facts p WP) as (_&_&_&_&_&_&Q&_). congruence. }
  destruct (clean_decomp p WP _ CW NZ2) as (d&st&part&E&D&G&GP).
  assert (part = []) as ->.
  { destruct GP as [|GP]; auto. exfalso. destruct GP as (NE&NS&_). destruct (exists_last NE) as (q&l&->).
    replace (d ++ native p :: render p st ++ q ++ [l]) with ((d ++ native p :: render p st ++ q) ++ [l]) in E
      by (now rewrite <- !app_assoc; cbn; rewrite <- !app_assoc).
    apply app_inj_tail in E. destruct E as [_ E]. specialize (NS l ltac:(apply in_app_iff; right; now left)).
    rewrite <- E in NS. pose proof (slash_facts p WP) as (_&_&_&Q&_). congruence. }
  destruct (decomp_clean p WP d st [] D G ltac:(auto)) as [_ LW]. rewrite app_nil_r in E, LW. cbn [tailc] in LW. rewrite app_nil_r in LW.
  destruct (clean_rel p WP wd d st name E D G NW NF NZ HS LB) as (st'&part'&R1&R2&R3&R4).
  exists (d ++ native p :: render p st' ++ part'). split; auto.
  destruct (decomp_clean p WP d st' part' D R2 R3) as [C LO]. split; auto. rewrite LO. rewrite E, LW. cbn [snd].
  rewrite R4. f_equal. symmetry. apply skip_drive; auto.
Qed.
Print Assumptions C17_clean_relative_to_working_dir.

(** Cleaning a clean path changes nothing; in particular cleaning twice is cleaning once. *)
Theorem C17_clean_is_idempotent : forall p, p = posix \/ p = win -> forall wd s make_full,
  clean p s -> no_nul s -> List.length s < N.to_nat 65536 -> clean_path p wd s make_full = Some s.
Proof. intros p WP wd s mk. apply clean_fix; auto. Qed.
Print Assumptions C17_clean_is_idempotent.

Lemma clean_path_short p wd name mk r : clean_path p wd name mk = Some r -> List.length r < N.to_nat 65536.
Proof.
  unfold clean_path. destruct (clean_loop _ _ _ _ _ _ _ _) as [rd|]; [|discriminate]. intros H. injection H as <-.
  rewrite firstn_length. pose proof (N.mod_lt (N.of_nat (List.length (rev rd))) 65536 ltac:(discriminate)). lia.
Qed.
Lemma no_nul_path p (WP : p = posix \/ p = win) d st part : no_nul d -> Forall (good p) st -> (part = [] \/ good p part) ->
  no_nul (d ++ native p :: render p st ++ part).
Proof.
  intros ND G GP H. apply in_app_iff in H. destruct H as [H|[H|H]]; auto.
  - pose proof (slash_facts p WP) as (_&_&_&_&_&_&Q&_). congruence.
  - apply (good_nonul_render p WP st part G) in H; auto. destruct GP as [->|GP]; [intros []|apply GP].
Qed.
(** So cleaning twice is cleaning once, whatever the working directory is the second time. *)
Theorem C17_clean_twice : forall p, p = posix \/ p = win -> forall wd wd' name make_full r,
  no_nul name -> clean_path p wd name true = Some r ->
  (absolute p name /\ List.length name < N.to_nat 65536 \/
   wd <> [] /\ clean p (wd ++ [native p]) /\ no_nul wd /\ relative_name p name /\
   List.length wd + 1 + List.length name < N.to_nat 65536) ->
  clean_path p wd' r make_full = Some r.
Proof.
  intros p WP wd wd' name mk r NZ E H. pose proof (clean_path_short _ _ _ _ _ E) as LB.
  destruct H as [(AB&LN)|(NW&CW&NZW&RN&LN)].
  - destruct (C17_clean_absolute p WP wd name true AB NZ LN) as (r'&E'&C&_). rewrite E in E'. injection E' as <-.
    apply clean_fix; auto. destruct (absolute_shape p WP name AB) as (d&x&r0&->&D&SX&W).
    destruct (clean_abs p WP wd d x r0 true D SX W NZ LN) as (st&part&E2&G&GP&_). rewrite E in E2. injection E2 as ->.
    apply no_nul_path; auto. intros Q. apply NZ. apply in_app_iff. auto.
  - destruct (C17_clean_relative_to_working_dir p WP wd name NW CW NZW RN NZ LN) as (r'&E'&C&_). rewrite E in E'. injection E' as <-.
    apply clean_fix; auto. unfold clean_path in E.
    destruct (relative_not_full p name WP RN) as [NF HS].
    assert (NZ2 : nonul (wd ++ [native p])).
    { intros Q. apply in_app_iff in Q. destruct Q as [Q|[Q|[]]]; auto. pose proof (slash_facts p WP) as (_&_&_&_&_&_&Q1&_). congruence. }
    destruct (clean_decomp p WP _ CW NZ2) as (d&st&part&EW&D&G&GP).
    assert (part = []) as ->.
    { destruct GP as [|GP]; auto. exfalso. destruct GP as (NE&NS&_). destruct (exists_last NE) as (q&l&->).
      replace (d ++ native p :: render p st ++ q ++ [l]) with ((d ++ native p :: render p st ++ q) ++ [l]) in EW
        by (now rewrite <- !app_assoc; cbn; rewrite <- !app_assoc).
      apply app_inj_tail in EW. destruct EW as [_ EW]. specialize (NS l ltac:(apply in_app_iff; right; now left)).
      rewrite <- EW in NS. pose proof (slash_facts p WP) as (_&_&_&Q&_). congruence. }
    rewrite app_nil_r in EW.
    destruct (clean_rel p WP wd d st name EW D G NW NF NZ HS LN) as (st'&part'&R1&R2&R3&_).
    fold (clean_path p wd name true) in E. rewrite E in R1. injection R1 as ->.
    apply no_nul_path; auto. intros Q. apply NZ2. rewrite EW. apply in_app_iff. auto.
Qed.
Print Assumptions C17_clean_twice.

(** Cleaning a relative path without making it absolute leads to the same place from every directory. *)
Theorem C17_clean_kept_relative : forall p, p = posix \/ p = win -> forall wd name,
  relative_name p name -> no_nul name -> List.length name + 1 < N.to_nat 65536 ->
  exists r, clean_path p wd name false = Some r /\ ~ In (other p) r /\
    forall dir, walk dir (components p r) = walk dir (components p name).
Proof.
  intros p WP wd name RN NZ LB. destruct (relative_not_full p name WP RN) as [NF HS].
  destruct (clean_relative p WP wd name NF NZ HS LB) as (k&st&part&E&G&GP&WK).
  eexists. split; [exact E|]. split; [|exact WK].
  intros H. apply in_app_iff in H. destruct H as [H|H]; [|now apply other_not_in in H].
  pose proof (slash_facts p WP) as (SD&_&NO&SN&SO&_).
  unfold ups in H. apply in_concat in H. destruct H as (l&H1&H2). apply repeat_spec in H1. subst l.
  destruct H2 as [H2|[H2|[H2|[]]]]; congruence.
Qed.
Print Assumptions C17_clean_kept_relative.

Example C17_case :
  clean_path posix (L "/home/u") (L "a/./b//../c\..\..\..\x/y") true = Some (L "/home/x/y") /\
  clean_path win (L "C:\src") (L "..\..\a/b\.\c") true = Some (L "C:\a\b\c") /\
  clean_path posix (L "/home/u") (L "../a/../../b") false = Some (L "../../b") /\
  clean posix (L "/home/x/y").
Proof.
  repeat split; try (vm_compute; reflexivity).
  - exists [], (L "/home/x/y"). repeat split; auto; try discriminate. exists "/"%char, (L "home/x/y"). split; auto.
  - intros H. repeat (destruct H as [H|H]; [discriminate|]). destruct H.
  - exists [L "home"; L "x"], (L "y"). split; [vm_compute; reflexivity|].
    split; repeat constructor; discriminate.
Qed.

(** The claim is false of three kinds of input.  On Linux a name that starts with a backslash is relative,
    and its first slash is kept after the working directory's: the result has an empty component. *)
Theorem C17_leading_backslash_refuted : exists wd name r, clean posix (wd ++ L "/") /\
  clean_path posix wd name true = Some r /\ ~ clean posix r.
Proof.
  exists (L "/w"), (L "\foo"), (L "/w//foo"). split; [|split; [vm_compute; reflexivity|]].
  - split; [exists [], (L "/w/"); repeat split; auto; try discriminate; exists "/"%char, (L "w/"); auto|].
    split; [intros H; repeat (destruct H as [H|H]; [discriminate|]); destruct H|].
    exists [L "w"], []. split; [vm_compute; reflexivity|]. split; repeat constructor; discriminate.
  - intros (_&_&dirs&l&E&F&_). vm_compute in E. injection E as E.
    destruct dirs as [|d1 [|d2 [|d3 r]]]; cbn in E; try discriminate; injection E; intros; subst.
    + inversion F as [|? ? _ F1]; subst. inversion F1; subst. congruence.
    + destruct r; discriminate.
Qed.
Print Assumptions C17_leading_backslash_refuted.

(** When the process runs in the root directory the recorded working directory is empty, and ".." eats the
    separator: "a/../b" becomes "ab", which is neither absolute nor the right file. *)
Theorem C17_root_working_dir_refuted : exists name r,
  clean_path posix [] name true = Some r /\ ~ absolute posix r /\
  walk [] (components posix r) <> walk [] (components posix name).
Proof.
  exists (L "a/../b"), (L "ab"). split; [vm_compute; reflexivity|]. split; [|vm_compute; discriminate].
  intros (d&r&E&LD&_&c&r'&->&H). destruct d; [|discriminate]. cbn in E. injection E as <- _.
  destruct H as [H|[H _]]; discriminate.
Qed.
Print Assumptions C17_root_working_dir_refuted.

(** A path of 65536 characters or more is cut: its length is kept in 16 bits. *)
Lemma clean_path_length_mod wd s mk : clean posix s -> no_nul s ->
  clean_path posix wd s mk = Some (firstn (N.to_nat (N.of_nat (List.length s) mod 65536)%N) s).
Proof.
  intros C NZ. assert (WP : posix = posix \/ posix = win) by auto.
  destruct (clean_decomp posix WP s C NZ) as (d&st&part&E&D&G&GP).
  assert (d = []) as -> by (destruct D as (A&_); destruct d; [auto|discriminate]). cbn [app] in E.
  unfold clean_path. rewrite E. cbn [is_full windows posix native]. rewrite Ascii.eqb_refl. cbn [negb andb orb rev].
  change "/"%char with (native posix).
  set (r := render posix st ++ part) in *.
  destruct (loop_cap posix WP (List.length (native posix :: r)) (S (List.length (native posix :: r))) true (native posix :: r) [] (root_len posix) (native posix)) as [LC _].
  { rewrite <- E. exact NZ. } { right. cbn [List.length]. lia. }
  change (List.length (@nil ascii) + List.length (native posix :: r)) with (List.length (native posix :: r)). rewrite LC.
  assert (EL : loop0 posix (S (List.length (native posix :: r))) true (native posix :: r) [] (root_len posix) (native posix) = Some (rev (native posix :: r))).
  { cbn [List.length]. cbn [loop0]. replace (is_slash posix (native posix)) with true by reflexivity. cbn [skip_slashes].
    replace (is_slash posix (native posix)) with true by reflexivity. rewrite skip_noop.
    - pose proof (loop_clean posix WP true [native posix] st [] part (S (List.length r)) G GP ltac:(unfold r; lia)) as EL2. exact EL2.
    - unfold r. destruct G as [|c st0 Hc F].
      + cbn. destruct GP as [->|(P1&P2&_)]; [exact I|]. destruct part; [congruence|]. apply P2. now left.
      + destruct Hc as (P1&P2&_). destruct c; [congruence|]. cbn. apply P2. now left. }
  rewrite EL. cbv zeta. rewrite rev_involutive. reflexivity.
Qed.
Theorem C17_long_path_refuted : exists name, clean posix name /\ no_nul name /\
  forall wd make_full, clean_path posix wd name make_full = Some [].
Proof.
  assert (WP : posix = posix \/ posix = win) by auto.
  assert (Q : exists n, N.of_nat (S n) = 65536%N) by (exists (N.to_nat 65535); lia).
  destruct Q as [n Q]. set (l := repeat "a"%char n). exists (native posix :: l).
  assert (LL : List.length l = n) by apply repeat_length.
  assert (GL : good posix l).
  { assert (A : forall c, In c l -> c = "a"%char) by (intros c H; now apply repeat_spec in H).
    split; [intros H; rewrite H in LL; cbn in LL; lia|]. split; [intros c H; rewrite (A c H); reflexivity|].
    split; [intros H; apply A in H; discriminate|].
    split; intros H; specialize (A dot); rewrite H in A; specialize (A (or_introl eq_refl)); discriminate. }
  assert (D : drive_ok posix []) by (split; [reflexivity|split; [intros c []|discriminate]]).
  destruct (decomp_clean posix WP [] [] l D ltac:(constructor) ltac:(auto)) as [C _]. cbn [app render map List.concat] in C.
  assert (NZ : no_nul (native posix :: l)).
  { intros [H|H]; [discriminate|]. apply repeat_spec in H. discriminate. }
  split; auto. split; auto. intros wd mk. rewrite clean_path_length_mod by auto.
  cbn [List.length]. rewrite LL, Q. reflexivity.
Qed.
Print Assumptions C17_long_path_refuted.

(** Linux: the path computed from a directory to a file, walked from that directory, leads to the file. *)
Theorem C19_relative_path_leads_to_file : forall base file,
  clean posix base -> no_nul base -> clean posix file -> no_nul file ->
  walk (snd (location posix base)) (components posix (relative_path posix base file)) = snd (location posix file).
Proof. exact relative_leads_back. Qed.
Print Assumptions C19_relative_path_leads_to_file.

(** The computed path does not start at the root. *)
Theorem C19_result_is_relative : forall base file,
  clean posix base -> no_nul base -> clean posix file -> no_nul file ->
  relative_name posix (relative_path posix base file).
Proof.
  intros base file CB NB CF NF. destruct (with_slash_clean base CB NB) as (stb&EB&GB&_).
  destruct (clean_decomp posix WPx file CF NF) as (d&stf&part&EF&D&GF&GP).
  assert (d = []) as -> by (destruct D as (A&_); destruct d; [auto|discriminate]). cbn [app] in EF.
  assert (UR : relative_path posix base file = match common (with_slash base) file (with_slash base) file false with
    | (_, _, false) => file | (pa, pb, true) => List.concat (repeat [dot; dot; native posix] (count_slashes pa)) ++ pb end) by reflexivity.
  rewrite UR. clear UR.
  destruct (common (with_slash base) file (with_slash base) file false) as [[pa pb] mv] eqn:EC.
  assert (mv = true) as ->.
  { revert EC. rewrite EB, EF. destruct (moved_first (native posix) (render posix stb) (render posix stf ++ part) eq_refl ltac:(discriminate) false) as (u&v&->).
    congruence. }
  assert (NZB : nonul (with_slash base)).
  { rewrite EB. intros [H|H]; [discriminate|]. pose proof (good_nonul_render posix WPx stb [] GB) as Q. rewrite app_nil_r in Q. apply Q; auto. intros []. }
  destruct (common_spec (with_slash base) file [] [] false (with_slash base) file pa pb true eq_refl eq_refl
      ltac:(intros z []) NZB ltac:(discriminate) EC) as (pre&_&P2&P3&_).
  destruct (P3 eq_refl) as (pre'&y&->&SY). cbn [app] in P2. rewrite <- app_assoc in P2. cbn [app] in P2.
  intros c HC. destruct (count_slashes pa) as [|n]; [|cbn in HC; injection HC as <-; split; discriminate].
  cbn [repeat List.concat app] in HC. destruct pb as [|c0 pb0]; [discriminate|]. injection HC as ->.
  assert (CS : components posix pre' ++ components posix (c :: pb0) = [] :: stf ++ [part]).
  { rewrite <- comps_split with (x := y) by auto. rewrite P2, EF. rewrite comp_cons_slash by reflexivity.
    rewrite (comps_render posix WPx); auto; [now apply good_noslash|]. destruct GP as [->|GP]; [intros z []|apply GP]. }
  destruct (is_slash posix c) eqn:SC.
  2:{ split; intros ->; discriminate. }
  exfalso. rewrite comp_cons_slash in CS by auto. pose proof (comp_nonempty posix pre') as NE.
  destruct (components posix pre') as [|h t]; [congruence|]. injection CS as -> CS.
  pose proof (comp_nonempty posix pb0) as NE2. destruct (exists_last NE2) as (cs&l&E2). rewrite E2 in CS.
  change (t ++ [] :: cs ++ [l]) with (t ++ ([] :: cs) ++ [l]) in CS. rewrite app_assoc in CS. apply app_inj_tail in CS. destruct CS as [CS _].
  rewrite <- CS in GF. apply Forall_app in GF. destruct GF as [_ GF]. inversion GF as [|? ? GN _]; subst. destruct GN. congruence.
Qed.
Print Assumptions C19_result_is_relative.

Example C19_case :
  relative_path posix (L "/a/b/c") (L "/a/x/y.cpp") = L "../../x/y.cpp" /\
  relative_path posix (L "/a/b/") (L "/a/b/y.cpp") = L "y.cpp" /\
  relative_path posix (L "/a/bc/") (L "/a/bd") = L "../bd".
Proof. repeat split; vm_compute; reflexivity. Qed.

(** Stripping the extension when the file name has one: exactly the last extension goes. *)
Theorem C47_strips_last_extension_partial : forall dir name ext : str,
  ~ In dot ext -> strip_ext (dir ++ name ++ dot :: ext) = dir ++ name.
Proof.
  intros dir name ext H. unfold strip_ext. rewrite app_assoc, rev_app_distr. cbn [rev]. rewrite <- app_assoc. cbn [app].
  rewrite cut_spec by auto. apply rev_involutive.
Qed.
Print Assumptions C47_strips_last_extension_partial.
Theorem C47_no_dot_unchanged : forall s : str, ~ In dot s -> strip_ext s = s.
Proof. intros s H. unfold strip_ext. rewrite cut_none; auto. intros Q. apply H. now apply in_rev. Qed.
Print Assumptions C47_no_dot_unchanged.

(** The claim is false when only a directory has a dot: the file and part of the directory are lost. *)
Theorem C47_directory_dot_refuted : exists dir name, ~ In "/"%char name /\ ~ In dot name /\
  ~ (exists t, strip_ext (dir ++ L "/" ++ name) = dir ++ L "/" ++ t).
Proof.
  exists (L "/a.b"), (L "c"). split; [intros [H|[]]; discriminate|]. split; [intros [H|[]]; discriminate|].
  intros [t H]. vm_compute in H. discriminate.
Qed.
Print Assumptions C47_directory_dot_refuted.
Example C47_case : strip_ext (L "/a.b/c.tar.gz") = L "/a.b/c.tar".
Proof. vm_compute. reflexivity. Qed.

(** ** C49: a file named in an exclusion list is recognised exactly *)
Lemma forallb_combine_eq : forall a b : str, List.length a <= List.length b ->
  forallb (fun q => Ascii.eqb (fst q) (snd q)) (combine a b) = true <-> exists t, b = a ++ t.
Proof.
  induction a as [|x a IH]; intros b LE; cbn; [split; [exists b; auto|auto]|].
  destruct b as [|y b]; cbn in *; [lia|]. rewrite andb_true_iff, IH by lia. split.
  - intros [E (t&->)]. apply Ascii.eqb_eq in E as ->. eauto.
  - intros (t&E). injection E as -> ->. split; [apply Ascii.eqb_refl|eauto].
Qed.
Lemma starts_with_iff pre s : starts_with pre s = true <-> exists t, s = pre ++ t.
Proof.
  unfold starts_with. destruct (Nat.leb_spec (List.length pre) (List.length s)) as [H|H].
  - apply forallb_combine_eq. exact H.
  - split; [discriminate|]. intros (t&->). rewrite app_length in H. lia.
Qed.
Lemma ends_with_iff s suf : ends_with s suf = true <-> exists t, s = t ++ suf.
Proof.
  unfold ends_with. rewrite starts_with_iff. split; intros (t&E).
  - exists (rev t). rewrite <- (rev_involutive s), E, rev_app_distr, rev_involutive. reflexivity.
  - exists (rev t). rewrite E, rev_app_distr. reflexivity.
Qed.

(** A path is matched by a file name exactly when it is that name, or some directory followed by a
    slash and that name; never on part of a name. *)
Theorem C49_whole_name_only : forall p (path file : str),
  path_ends_with_file p path file = true <->
  path = file \/ exists dir, path = dir ++ native p :: file.
Proof.
  intros p path file. unfold path_ends_with_file.
  destruct (ends_with path file) eqn:E.
  - apply ends_with_iff in E as (t&->). rewrite app_length.
    destruct t as [|c t] using rev_ind.
    + cbn. rewrite Nat.eqb_refl. split; auto.
    + clear IHt. rewrite app_length. cbn [List.length].
      destruct (Nat.eqb_spec (List.length t + 1 + List.length file) (List.length file)); [lia|].
      replace (List.length t + 1 + List.length file - List.length file - 1) with (List.length t) by lia.
      rewrite <- app_assoc, nth_error_app2, Nat.sub_diag by lia. cbn [nth_error app].
      split.
      * intros Q. apply Ascii.eqb_eq in Q as ->. right. eauto.
      * intros [Q|(d&Q)].
        -- apply (f_equal (@List.length ascii)) in Q. rewrite app_length in Q. cbn in Q. lia.
        -- assert (ED : t ++ [c] = d ++ [native p]).
           { apply (app_inv_tail file). rewrite <- !app_assoc. exact Q. }
           apply app_inj_tail in ED as [_ ->]. apply Ascii.eqb_refl.
  - split; [discriminate|]. intros [->|(d&->)]; exfalso.
    + assert (Q : ends_with file file = true) by (apply ends_with_iff; exists []; auto). congruence.
    + assert (Q : ends_with (d ++ native p :: file) file = true).
      { apply ends_with_iff. exists (d ++ [native p]). rewrite <- app_assoc. reflexivity. }
      congruence.
Qed.
Print Assumptions C49_whole_name_only.
Example C49_case : path_ends_with_file posix (L "/a/stuff.cpp") (L "stuff.cpp") = true /\
  path_ends_with_file posix (L "/a/otherstuff.cpp") (L "stuff.cpp") = false.
Proof. vm_compute. auto. Qed.

(** ** C50: directory settings end in one native slash *)
Theorem C50_ends_in_native_slash : forall p (s : str), exists d, ensure_trailing p s = d ++ [native p] /\
  (s = d \/ s = d ++ [native p] \/ s = d ++ [other p]).
Proof.
  intros p s. unfold ensure_trailing. destruct (rev s) as [|c r] eqn:E.
  - exists s. auto.
  - assert (Es : s = rev r ++ [c]) by (rewrite <- (rev_involutive s), E; reflexivity).
    destruct (Ascii.eqb_spec c (native p)) as [->|N]; [exists (rev r); auto|].
    destruct (Ascii.eqb_spec c (other p)) as [->|N2]; [exists (rev r); auto|].
    exists s. auto.
Qed.
Print Assumptions C50_ends_in_native_slash.

(** No slash is added to a path that has one, and doing it again changes nothing. *)
Theorem C50_no_second_slash : forall p (s : str), native p <> other p ->
  ensure_trailing p (s ++ [native p]) = s ++ [native p] /\
  ensure_trailing p (s ++ [other p]) = s ++ [native p] /\
  ensure_trailing p (ensure_trailing p s) = ensure_trailing p s.
Proof.
  intros p s NO.
  assert (A : forall x, ensure_trailing p (x ++ [native p]) = x ++ [native p]).
  { intros x. unfold ensure_trailing. rewrite rev_app_distr. cbn [rev app]. now rewrite Ascii.eqb_refl. }
  split; [apply A|]. split.
  - unfold ensure_trailing. rewrite rev_app_distr. cbn [rev app].
    destruct (Ascii.eqb_spec (other p) (native p)) as [E|_]; [congruence|]. rewrite Ascii.eqb_refl.
    now rewrite rev_involutive.
  - destruct (C50_ends_in_native_slash p s) as (d&E&_). rewrite E. apply A.
Qed.
Print Assumptions C50_no_second_slash.
Example C50_case : ensure_trailing win (L "c:/a/") = L "c:/a\" /\ ensure_trailing posix (L "/a") = L "/a/".
Proof. vm_compute. auto. Qed.

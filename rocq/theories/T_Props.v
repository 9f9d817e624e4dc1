(** C79, C80, C81: settings, lists of targets and names in function calls. *)
From Coq Require Import String List Arith Bool Ascii ZArith Lia.
From Verif Require Import M_Path M_Names M_Dir M_Props S_Props P_Props P_Props2 P_Props3 P_Props4 P_Props5.
Import ListNotations.
Open Scope list_scope.

(** ** C79 *)
(** The properties of a target are set exactly as the rules in [S_Props] say: a call has no errors if and only if every
    rule can be met, and then the values are those of the rules. *)
Theorem C79_settings : forall p cp env cls g l g', healthy g ->
  (populate p cp env cls g = Some (g', l) <->
   sets_class p cp env (fun q => env (dotted (pname q))) cls g l g').
Proof. exact populate_iff. Qed.
Print Assumptions C79_settings.

(** The strings of one text, with its aliases. *)
Theorem C79_strings : forall p cp g m s l, healthy g ->
  (strings p cp (S (S (List.length g))) g m s = Some l <-> gives p cp g m s l).
Proof. exact strings_gives. Qed.
Print Assumptions C79_strings.

(** What a call sets was in scope, and what is required was. *)
Definition in_scope (env : str -> option var) (q : prop) : Prop := exists v, env (dotted (pname q)) = Some v.
Definition embedded (q : prop) : Prop := let '(mkProp _ ty _ _ _) := q in ~ no_embed ty.
Theorem C79_scope : forall p cp env cls g l g', healthy g -> populate p cp env cls g = Some (g', l) ->
  (forall q, In q cls -> hidden q = false -> required q = true -> embedded q \/ in_scope env q) /\
  (forall n x, In (n, x) l -> exists q, In q cls /\ pname q = n /\ hidden q = false /\ (embedded q \/ in_scope env q)) /\
  (forall q, In q cls -> hidden q = false -> in_scope env q -> exists x, In (pname q, x) l).
Proof.
  intros p cp env cls g l g' HG H. apply (populate_iff p cp env cls g l g' HG) in H. clear HG. unfold in_scope.
  remember (fun q => env (dotted (pname q))) as look eqn:LK.
  induction H as [look g|look q r g l g' HD H IH|look q r g g1 l g' HD HQ H IH|look q r g x g1 l g' HD HQ H IH]; subst look.
  - split; [ intros q [] | ]. split; [ intros n x [] | intros q [] ].
  - destruct (IH eq_refl) as (A & B & C). split; [ | split ].
    + intros q' [<-|I]; [ congruence | auto ].
    + intros n x I. destruct (B n x I) as (q' & J & K). exists q'. split; [ now right | exact K ].
    + intros q' [<-|I]; [ congruence | auto ].
  - destruct (IH eq_refl) as (A & B & C).
    assert (N : env (dotted (pname q)) = None /\ required q = false).
    { inversion HQ; subst; cbn [required]; auto. }
    split; [ | split ].
    + intros q' [<-|I]; [ destruct N; congruence | auto ].
    + intros n x I. destruct (B n x I) as (q' & J & K). exists q'. split; [ now right | exact K ].
    + intros q' [<-|I] HH (v & V); [ destruct N; congruence | eauto ].
  - destruct (IH eq_refl) as (A & B & C).
    assert (N : embedded q \/ exists v, env (dotted (pname q)) = Some v).
    { inversion HQ; subst; cbn [embedded no_embed]; try (right; eexists; eauto; fail). left. tauto. }
    split; [ | split ].
    + intros q' [<-|I]; [ auto | auto ].
    + intros n y [E|I]; [ injection E as <- <-; exists q; split; [ now left | auto ] | ].
      destruct (B n y I) as (q' & J & K). exists q'. split; [ now right | exact K ].
    + intros q' [<-|I] HH V; [ exists x; now left | ]. destruct (C q' I HH V) as (y & J). exists y. now right.
Qed.
Print Assumptions C79_scope.

(** The targets that were there stay as they are; only files are added. *)
Definition only_files (cp : str -> str) (g g' : graph) : Prop :=
  exists new, g' = g ++ new /\ forall n, In n new -> exists s, n = mkNode (cp s) TyFile true [].
Lemma only_refl cp g : only_files cp g g.
Proof. exists []. rewrite app_nil_r. split; [ reflexivity | intros n [] ]. Qed.
Lemma only_trans cp g1 g2 g3 : only_files cp g1 g2 -> only_files cp g2 g3 -> only_files cp g1 g3.
Proof.
  intros (a & -> & A) (b & -> & B). exists (a ++ b). rewrite app_assoc. split; [ reflexivity | ].
  intros n I. apply in_app_iff in I. destruct I; auto.
Qed.
Lemma each_only cp o g ss g' l : lists_each cp o g ss g' l -> only_files cp g g'.
Proof.
  induction 1 as [|g s r g1 l1 g2 l2 N L E IH]; [ apply only_refl | ].
  eapply only_trans; [ | exact IH ]. inversion L; subst; [ | apply only_refl ].
  eexists. split; [ reflexivity | ]. intros n [<-|[]]. eauto.
Qed.
Lemma sets_only p cp env :
  (forall q v g x g', sets p cp env q v g x g' -> only_files cp g g') /\
  (forall look cls g l g', sets_class p cp env look cls g l g' -> only_files cp g g') /\
  (forall cls ss g l g', sets_structs p cp env cls ss g l g' -> only_files cp g g').
Proof.
  apply (sets_mutual p cp env); intros; try apply only_refl; try assumption; try (eapply each_only; eassumption);
    eapply only_trans; eassumption.
Qed.
Theorem C79_graph_kept : forall p cp env cls g l g', healthy g -> populate p cp env cls g = Some (g', l) ->
  exists new, g' = g ++ new /\ forall n, In n new -> exists s, n = mkNode (cp s) TyFile true [].
Proof.
  intros p cp env cls g l g' HG H. apply (populate_iff p cp env cls g l g' HG) in H.
  exact (proj1 (proj2 (sets_only p cp env)) _ _ _ _ _ H).
Qed.
Print Assumptions C79_graph_kept.

(** A negative number is taken for a setting that has no negative values, if it has no range. *)
Theorem C79_negative_refuted : forall p cp env g n h r i, env (dotted n) = Some (VInt (-1)) -> h = false ->
  populate p cp env [mkProp n (PUInt None) h r i] g = Some (g, [(n, SetUInt 4294967295)]).
Proof. intros p cp env g n h r i E ->. unfold populate, pop_class. cbn [hidden pname]. rewrite E. reflexivity. Qed.
Print Assumptions C79_negative_refuted.

(** A relative folder that is a path on a server stays one; a relative file does not. *)
Theorem C79_server_refuted : exists s, fixup_folder win s = s ++ [native win] /\
  fixup_file win s <> s /\ starts_with [native win; native win] s = true /\ starts_with [native win; native win] (fixup_file win s) = false.
Proof. exists (L "\\srv\a.h"). repeat split; try reflexivity. discriminate. Qed.
Print Assumptions C79_server_refuted.

(** ** C80 *)
(** One name: the targets behind it, in order; what is not known is a file; an error if there is a target that is not
    allowed here. *)
Theorem C80_name : forall cp o g s l g' l', healthy g ->
  (list_one cp o g s l = Some (g', l') <-> exists r, lists cp o g s g' r /\ l' = l ++ r).
Proof. exact list_one_iff. Qed.
Print Assumptions C80_name.

(** Several names, as the value of a property: those of each in turn. *)
Theorem C80_names : forall cp o ss g g' l, healthy g ->
  (list_names cp o g ss [] = Some (g', l) <-> lists_each cp o g ss g' l).
Proof.
  intros cp o ss g g' l HG. rewrite (list_names_iff cp o ss g [] g' l HG). split.
  - intros (r & H & ->). exact H.
  - intro H. exists l. auto.
Qed.
Print Assumptions C80_names.

(** Names that were read before, in one pass. *)
Theorem C80_one_pass : forall cp o ss g g' l, healthy g -> no_dups o = false -> ~ In [] ss ->
  ((exists tags, list_sweep cp o g ss ([], []) = Some (g', (l, tags))) <-> lists_each cp o g ss g' l).
Proof.
  intros cp o ss g g' l HG D NE. rewrite (list_sweep_iff cp o ss D NE g [] [] g' l HG). now apply C80_names.
Qed.
Print Assumptions C80_one_pass.

(** There is no alias in a list, and nothing that is not in the graph. *)
Lemma file_last (g : graph) n : nth_error (g ++ [n]) (List.length g) = Some n.
Proof. rewrite nth_error_app2 by lia. now rewrite Nat.sub_diag. Qed.
Lemma firsts_in l : forall seen x, In x (firsts seen l) -> In x l.
Proof.
  induction l as [|y l IH]; cbn [firsts]; intros seen x I; [ destruct I | ].
  destruct (in_dec Nat.eq_dec y seen); [ right; eauto | ]. destruct I as [<-|I]; [ now left | right; eauto ].
Qed.
Theorem C80_no_alias : forall cp o ss g g' l, healthy g -> list_names cp o g ss [] = Some (g', l) ->
  forall x, In x l -> exists n, nth_error g' x = Some n /\ ntype n <> TyAlias.
Proof.
  intros cp o ss g g' l HG H. apply (C80_names cp o ss g g' l HG) in H. clear HG.
  induction H as [|g s r g1 l1 g2 l2 N L E IH]; intros x I; [ destruct I | ].
  apply in_app_iff in I. destruct I as [I|I]; [ | auto ].
  assert (X : exists n, nth_error g1 x = Some n /\ ntype n <> TyAlias).
  { inversion L as [NC|k ls C SF AL]; subst.
    - destruct I as [<-|[]]. eexists. split; [ apply file_last | discriminate ].
    - assert (J : In x ls) by (destruct (no_dups o); [ eapply firsts_in; exact I | exact I ]).
      destruct (stands_leaves _ _ _ SF x J) as (n & A & B). eauto. }
  destruct X as (n & A & B). exists n. split; [ | exact B ].
  destruct (each_only cp o g1 r g2 l2 E) as (new & -> & _). rewrite nth_error_app1; [ exact A | ]. apply nth_error_Some. congruence.
Qed.
Print Assumptions C80_no_alias.

(** One name never lists a target twice, where that is asked for... *)
Lemma firsts_nodup l : forall seen, NoDup (firsts seen l) /\ forall x, In x (firsts seen l) -> ~ In x seen.
Proof.
  induction l as [|y l IH]; cbn [firsts]; intro seen; [ split; [ constructor | intros x [] ] | ].
  destruct (in_dec Nat.eq_dec y seen) as [I|I]; [ apply IH | ].
  destruct (IH (y :: seen)) as [A B]. split.
  - constructor; [ | exact A ]. intro J. apply (B y J). now left.
  - intros x [<-|J]; [ exact I | ]. intro K. apply (B x J). now right.
Qed.
Theorem C80_no_duplicates : forall cp o g s g' l, healthy g -> no_dups o = true ->
  list_one cp o g s [] = Some (g', l) -> NoDup l.
Proof.
  intros cp o g s g' l HG D H. apply (list_one_iff cp o g s [] g' l HG) in H. destruct H as (r & H & ->). cbn [app].
  inversion H; subst.
  - constructor; [ intros [] | constructor ].
  - rewrite D. apply firsts_nodup.
Qed.
Print Assumptions C80_no_duplicates.

(** ... but several names do: duplicates are only looked for within each of them. *)
Theorem C80_duplicates_refuted : forall cp, exists g ss, healthy g /\ no_dups all_opts = true /\
  list_names cp all_opts g ss [] = Some (g, [0; 0]).
Proof.
  intro cp. exists [mkNode (L "a") TyFile true []], [L "a"; L "a"]. split; [ | split; reflexivity ].
  assert (X : forall k n, nth_error [mkNode (L "a") TyFile true []] k = Some n -> k = 0 /\ n = mkNode (L "a") TyFile true []).
  { intros [|[|k]] n H; try discriminate. injection H as <-. auto. }
  split.
  - intros i j ni nj A B _. apply X in A, B. destruct A as [-> _], B as [-> _]. reflexivity.
  - intros k n A T. apply X in A. destruct A as [_ ->]. discriminate.
  - intros k n A T. apply X in A. destruct A as [_ ->]. discriminate.
  - intros k n t A T. apply X in A. destruct A as [_ ->]. discriminate.
Qed.
Print Assumptions C80_duplicates_refuted.

(** An alias that is its own only target is accepted, without targets, though targets are required: it is in the graph
    when its properties are set. *)
Theorem C80_own_target_refuted : forall p cp env g x i, x <> [] -> healthy g ->
  (forall k, ~ goes_by g x k) -> env (dotted (L "Targets")) = Some (VStr x) ->
  let g' := g ++ [mkNode x TyAlias false []] in
  populate p cp env [mkProp (L "Targets") (PNodes true) false true i] g' = Some (g', [(L "Targets", SetNodes [])]).
Proof.
  intros p cp env g x i NE HG NB E g'.
  assert (C : forall k n, nth_error g' k = Some n -> nth_error g k = Some n \/ k = List.length g /\ n = mkNode x TyAlias false []).
  { intros k n H. unfold g' in H. destruct (Nat.lt_ge_cases k (List.length g)) as [LT|GE].
    - rewrite nth_error_app1 in H by exact LT. auto.
    - rewrite nth_error_app2 in H by exact GE. destruct (k - List.length g) as [|j] eqn:Q.
      + injection H as <-. right. split; [ lia | reflexivity ].
      + destruct j; discriminate. }
  assert (HG' : healthy g').
  { destruct HG as [U NF AN AB]. split.
    - intros a b na nb Ha Hb Q. apply C in Ha, Hb. destruct Ha as [Ha|[-> ->]], Hb as [Hb|[-> ->]].
      + eapply U; eauto.
      + destruct (NB a). exists na. auto.
      + destruct (NB b). exists nb. auto.
      + reflexivity.
    - intros k n H T. apply C in H. destruct H as [H|[-> ->]]; [ eauto | reflexivity ].
    - intros k n H T. apply C in H. destruct H as [H|[-> ->]]; [ eauto | exact NE ].
    - intros k n t H T J. apply C in H. destruct H as [H|[-> ->]]; [ | destruct J ].
      destruct (AB k n t H T J) as (y & Y & Z). exists y. split; [ | exact Z ]. unfold g'.
      rewrite nth_error_app1; [ exact Y | ]. apply nth_error_Some. congruence. }
  apply populate_iff; [ exact HG' | ].
  eapply class_set; [ reflexivity | | constructor ]. cbn [pname]. rewrite E.
  eapply (set_targets p cp env (L "Targets") false true i g' (VStr x) (VStr x) [x] g' []); [ exact E | reflexivity | ].
  assert (L1 : lists cp all_opts g' x g' (firsts [] (concat []))).
  { eapply (lists_target cp all_opts g' x (List.length g)).
    - left. exists (mkNode x TyAlias false []). split; [ apply file_last | reflexivity ].
    - eapply stands_alias; [ apply file_last | reflexivity | constructor ].
    - intros y []. }
  exact (each_cons cp all_opts g' x [] g' [] g' [] NE L1 (each_nil cp all_opts g')).
Qed.
Print Assumptions C80_own_target_refuted.

(** A graph with aliases of aliases. *)
Definition files : graph :=
  [ mkNode (L "/a.cpp") TyFile true []; mkNode (L "/b.cpp") TyFile true [];
    mkNode (L "objs") TyObjectList false []; mkNode (L "two") TyAlias false [0; 1];
    mkNode (L "all") TyAlias false [3; 2; 0; 3] ].
Lemma files_healthy : healthy files.
Proof.
  split.
  - intros [|[|[|[|[|i]]]]] [|[|[|[|[|j]]]]] ni nj A B; cbn in A, B; try discriminate; try (destruct i; discriminate);
      try (destruct j; discriminate); injection A as <-; injection B as <-; intro E; try reflexivity; discriminate.
  - intros [|[|[|[|[|k]]]]] n A; cbn in A; try (destruct k; discriminate); injection A as <-; intro T; try discriminate; reflexivity.
  - intros [|[|[|[|[|k]]]]] n A; cbn in A; try (destruct k; discriminate); injection A as <-; intro T; try discriminate; discriminate.
  - intros [|[|[|[|[|k]]]]] n t A; cbn in A; try (destruct k; discriminate); injection A as <-; intros T I; try discriminate; cbn in I;
      decompose [or] I; try contradiction; subst; eexists; (split; [ reflexivity | intro Q; cbn in Q; first [ discriminate | lia ] ]).
Qed.
Definition to_root (s : str) : str := match s with "/"%char :: _ => s | _ => "/"%char :: s end.
Definition scope (n : str) : option var :=
  if same n (L ".Inputs") then Some (VStrs [L "all"; L "c.cpp"])
  else if same n (L ".Out") then Some (VStr (L "out//x"))
  else if same n (L ".Jobs") then Some (VInt 4)
  else if same n (L ".Parts") then Some (VStructs [[(L ".Name", VStr (L "one"))]; []])
  else if same n (L ".Name") then Some (VStr (L "outer"))
  else None.
Definition a_class : list prop :=
  [ mkProp (L "Inputs") (PStr true (mkS (File false) (Some (Some TyObjectList)))) false true false;
    mkProp (L "Out") (PStr false (mkS (Folder true) None)) false true false;
    mkProp (L "Jobs") (PInt (Some (1, 8)%Z)) false false false;
    mkProp (L "Quiet") PBool false false false;
    mkProp (L "Parts") (PStructs [mkProp (L "Name") (PStr false (mkS Free None)) false true true]) false false false ].
Example C79_case : healthy files /\ populate posix to_root scope a_class files = Some (files,
  [ (L "Inputs", SetStrs [L "/a.cpp"; L "/b.cpp"; L "objs"; L "/a.cpp"; L "/a.cpp"; L "/b.cpp"; L "/c.cpp"]);
    (L "Out", SetStr (L "out/x/")); (L "Jobs", SetInt 4);
    (L "Parts", SetStructs [[(L "Name", SetStr (L "one"))]; [(L "Name", SetStr (L "outer"))]]) ]).
Proof. split; [ exact files_healthy | reflexivity ]. Qed.
Example C80_case : list_one to_root all_opts files (L "ALL") [] = Some (files, [0; 1; 2]) /\
  list_one to_root (mkO false false false false false) files (L "all") [] = Some (files, [0; 1; 2; 0; 0; 1]) /\
  list_one to_root all_opts files (L "c.cpp") [] = Some (files ++ [mkNode (L "/c.cpp") TyFile true []], [5]).
Proof. repeat split; reflexivity. Qed.

(** ** C81 *)
(** Calls within calls: there is an error if and only if a name is used twice; without one, the new targets are those the
    calls make, in order, the inner ones first, each with its name, and its other name is an alias of it. *)
Theorem C81_names : forall cp c h g, plain_calls c ->
  match do_call cp c h g with
  | Some (_, g') =>
      fresh cp (map nname g) (all_names (makes c)) /\
      (exists new, g' = g ++ new /\ map nname new = all_names (makes c)) /\
      forall x, In x (makes c) -> exists k n, nth_error g' k = Some n /\ nname n = fst x /\ ntype n <> TyAlias /\
        forall a, snd x = Some a -> exists j m, nth_error g' j = Some m /\ nname m = a /\ ntype m = TyAlias /\ aliased m = [k]
  | None => ~ fresh cp (map nname g) (all_names (makes c))
  end.
Proof.
  intros cp c h g PL. assert (X := all_right cp c PL h g).
  destruct (do_call cp c h g) as [[h' g']|]; cbn [outcome] in X; [ | exact X ].
  destruct X as (A & B & C & _). split; [ exact C | ]. split; [ exact A | ]. rewrite Forall_forall in B. exact B.
Qed.
Print Assumptions C81_names.

(** The names of functions that were called before do not matter. *)
Theorem C81_history : forall cp c h1 h2 g, plain_calls c ->
  (do_call cp c h1 g = None <-> do_call cp c h2 g = None).
Proof.
  intros cp c h1 h2 g PL. assert (X := C81_names cp c h1 g PL). assert (Y := C81_names cp c h2 g PL).
  destruct (do_call cp c h1 g) as [[a b]|], (do_call cp c h2 g) as [[d e]|]; split; intro H; try discriminate; try reflexivity; tauto.
Qed.
Print Assumptions C81_history.

(** A call of a function within a call of that same function takes the name from the outer one: here the alias A of the
    outer target is never made... *)
Theorem C81_nested_refuted : forall h, exists c h' g', do_call to_root c h [] = Some (h', g') /\
  makes c = [(L "/b.exe", Some (L "B")); (L "/a.exe", Some (L "A"))] /\ map nname g' = [L "/b.exe"; L "B"; L "/a.exe"].
Proof.
  intro h. exists (Call 0 (L "A") [Call 0 (L "B") [] (Some (L "/b.exe"))] (Some (L "/a.exe"))).
  eexists. eexists. split; [ vm_compute; reflexivity | split; reflexivity ].
Qed.
Print Assumptions C81_nested_refuted.
(** ... and here the outer target has no name at all. *)
Theorem C81_nested_nameless_refuted : forall h, exists c h' g', do_call to_root c h [] = Some (h', g') /\
  makes c = [(L "B", None); (L "A", None)] /\ map nname g' = [L "B"; []].
Proof.
  intro h. exists (Call 0 (L "A") [Call 0 (L "B") [] None] None).
  eexists. eexists. split; [ vm_compute; reflexivity | split; reflexivity ].
Qed.
Print Assumptions C81_nested_nameless_refuted.
Example C81_case : let c := Call 0 (L "A") [Call 1 (L "B") [] None; Call 2 [] [] (Some (L "/x"))] (Some (L "/a.exe")) in
  plain_calls c /\ fresh to_root [L "B2"] (all_names (makes c)) /\
  match do_call to_root c (fun _ => L "old") [mkNode (L "B2") TyFile true []] with
  | Some (_, g') => map nname g' = [L "B2"; L "B"; L "/x"; L "/a.exe"; L "A"]
  | None => False
  end.
Proof.
  cbn [plain_calls makes]. split; [ | split ].
  - split; [ discriminate | ]. split; [ cbn; intuition discriminate | ]. cbn. repeat split; try discriminate; intuition.
  - assert (X := C81_names to_root (Call 0 (L "A") [Call 1 (L "B") [] None; Call 2 [] [] (Some (L "/x"))] (Some (L "/a.exe")))
        (fun _ => L "old") [mkNode (L "B2") TyFile true []]).
    assert (P : plain_calls (Call 0 (L "A") [Call 1 (L "B") [] None; Call 2 [] [] (Some (L "/x"))] (Some (L "/a.exe")))).
    { split; [ discriminate | ]. split; [ cbn; intuition discriminate | ]. cbn. repeat split; try discriminate; intuition. }
    specialize (X P). cbn in X. apply X.
  - reflexivity.
Qed.

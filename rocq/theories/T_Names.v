(** C18: target lookup. *)
From Coq Require Import List Arith Bool Ascii String NArith Lia.
From Verif Require Import M_Path M_Names P_Names.
Import ListNotations.

(** What is meant by a history: names are looked up and created on demand, as [declare] does, from an empty
    graph.  [same_name]: equal ignoring ASCII case. *)
Definition same_name (a b : str) : Prop := map lower_char a = map lower_char b.
Definition no_nul_names (ops : list (bool * str)) : Prop := Forall (fun o => ~ In nul (snd o)) ops.
Definition names (g : graph) : list str := map nname (all g).

(** For every hash function, table size, path cleaning and history: the table is never accessed out of
    bounds; a lookup finds a target exactly when one of that name exists, and finds one of that name. *)
Theorem C18_lookup_exact : forall hash64 clean bits ops, no_nul_names ops ->
  (forall s, ~ In nul s -> ~ In nul (clean s)) ->
  exists g, run hash64 clean (new_graph bits) ops = Some g /\
  forall name, ~ In nul name ->
   (exists n, find_exact hash64 g name = Some (Some n) /\ In n (all g) /\ same_name (nname n) name) \/
   (find_exact hash64 g name = Some None /\ forall m, In m (names g) -> ~ same_name m name).
Proof.
  intros h cl bits ops NZ CN. destruct (new_ok h bits) as (A&B&C).
  destruct (run_ok h cl CN ops _ A B C NZ) as (g&E&OK&NN&UQ). exists g. split; auto.
  intros name NZn. destruct (find_exact_spec h g name OK NN NZn) as ([n|]&E1&S).
  - left. exists n. tauto.
  - right. split; auto. intros m Hm. apply in_map_iff in Hm. destruct Hm as (n&<-&HI). now apply S.
Qed.
Print Assumptions C18_lookup_exact.

(** No two targets have names equal ignoring case. *)
Theorem C18_names_unique : forall hash64 clean bits ops g, no_nul_names ops ->
  (forall s, ~ In nul s -> ~ In nul (clean s)) ->
  run hash64 clean (new_graph bits) ops = Some g ->
  forall i j a b, nth_error (names g) i = Some a -> nth_error (names g) j = Some b -> same_name a b -> i = j.
Proof.
  intros h cl bits ops g NZ CN E i j a b HA HB S. destruct (new_ok h bits) as (A&B&C).
  destruct (run_ok h cl CN ops _ A B C NZ) as (g'&E'&OK&NN&UQ). rewrite E in E'. injection E' as <-.
  unfold uniq in UQ. rewrite <- map_map in UQ.
  assert (HL : i < List.length (map lower (names g))).
  { rewrite map_length. apply nth_error_Some. congruence. }
  apply (NoDup_nth_error (map lower (names g))); auto.
  rewrite (map_nth_error lower i (names g) HA), (map_nth_error lower j (names g) HB). f_equal. exact S.
Qed.
Print Assumptions C18_names_unique.

(** Declaring a name makes it findable, and nothing already there is lost or renamed. *)
Theorem C18_declare_then_found : forall hash64 clean bits ops is_file name, no_nul_names ops -> ~ In nul name ->
  (forall s, ~ In nul s -> ~ In nul (clean s)) ->
  exists g g', run hash64 clean (new_graph bits) ops = Some g /\ run hash64 clean (new_graph bits) (ops ++ [(is_file, name)]) = Some g' /\
  (exists more, names g' = names g ++ more) /\
  exists n, find_node hash64 clean g' name = Some (Some n) /\ (same_name (nname n) name \/ same_name (nname n) (clean name)).
Proof.
  intros h cl bits ops f name NZ NZn CN. destruct (new_ok h bits) as (A&B&C).
  destruct (run_ok h cl CN ops _ A B C NZ) as (g&E&OK&NN&UQ).
  destruct (declare_ok h cl CN g f name OK NN UQ NZn) as (g'&E'&OK'&NN'&UQ'&MK&H).
  exists g, g'. split; auto. split.
  { revert E E'. clear. generalize (new_graph bits). induction ops as [|[f0 n0] ops IH]; intros g0; cbn [run app].
    - intros H. injection H as ->. now intros ->.
    - destruct (declare h cl g0 f0 n0); [apply IH|discriminate]. }
  destruct (find_exact_spec h g' name OK' NN' NZn) as (r1&E1&S1).
  destruct (find_exact_spec h g' (cl name) OK' NN' (CN _ NZn)) as (r2&E2&S2).
  split.
  - destruct H as [(n&_&->)|(_&HN)]; [exists []; now rewrite app_nil_r|]. eexists. exact HN.
  - unfold find_node. rewrite E1. destruct r1 as [n|]; [exists n; split; [auto|left; apply S1]|].
    rewrite E2. destruct r2 as [n|]; [exists n; split; [auto|right; apply S2]|]. exfalso.
    destruct H as [(n&HF&->)|(_&HN)].
    + unfold find_node in HF. rewrite E1, E2 in HF. discriminate.
    + assert (HI : In (if f then cl name else name) (map nname (all g'))) by (rewrite HN; apply in_app_iff; right; now left).
      apply in_map_iff in HI. destruct HI as (n&Q&HI). destruct f; [apply (S2 n HI)|apply (S1 n HI)]; now rewrite Q.
Qed.
Print Assumptions C18_declare_then_found.

(** The hash function and the table size do not matter. *)
Theorem C18_hash_irrelevant : forall h1 h2 clean b1 b2 ops, no_nul_names ops ->
  (forall s, ~ In nul s -> ~ In nul (clean s)) ->
  exists g1 g2, run h1 clean (new_graph b1) ops = Some g1 /\ run h2 clean (new_graph b2) ops = Some g2 /\ names g1 = names g2 /\
  forall name, ~ In nul name ->
    option_map (option_map nname) (find_node h1 clean g1 name) = option_map (option_map nname) (find_node h2 clean g2 name).
Proof.
  intros h1 h2 cl b1 b2 ops NZ CN.
  destruct (new_ok h1 b1) as (A1&B1&C1). destruct (new_ok h2 b2) as (A2&B2&C2).
  assert (FE : forall g1 g2 name, ok h1 g1 -> nn g1 -> uniq g1 -> ok h2 g2 -> nn g2 -> uniq g2 -> names g1 = names g2 -> ~ In nul name ->
     exists r1 r2, find_exact h1 g1 name = Some r1 /\ find_exact h2 g2 name = Some r2 /\ option_map nname r1 = option_map nname r2).
  { intros g1 g2 name O1 N1 U1 O2 N2 U2 EN NZn.
    destruct (find_exact_spec h1 g1 name O1 N1 NZn) as (r1&E1&S1). destruct (find_exact_spec h2 g2 name O2 N2 NZn) as (r2&E2&S2).
    exists r1, r2. split; auto. split; auto.
    assert (TR : forall n, In n (all g1) -> exists m, In m (all g2) /\ nname m = nname n).
    { intros n HI. assert (Q : In (nname n) (names g2)) by (rewrite <- EN; now apply in_map). apply in_map_iff in Q. destruct Q as (m&Q1&Q2). eauto. }
    assert (TR2 : forall n, In n (all g2) -> exists m, In m (all g1) /\ nname m = nname n).
    { intros n HI. assert (Q : In (nname n) (names g1)) by (rewrite EN; now apply in_map). apply in_map_iff in Q. destruct Q as (m&Q1&Q2). eauto. }
    destruct r1 as [n1|], r2 as [n2|]; cbn; auto.
    - destruct S1 as [I1 L1], S2 as [I2 L2]. destruct (TR n1 I1) as (m&Im&Em). f_equal. rewrite <- Em.
      f_equal. apply (uniq_in g2); auto. rewrite Em. congruence.
    - destruct S1 as [I1 L1]. destruct (TR n1 I1) as (m&Im&Em). exfalso. apply (S2 m Im). now rewrite Em.
    - destruct S2 as [I2 L2]. destruct (TR2 n2 I2) as (m&Im&Em). exfalso. apply (S1 m Im). now rewrite Em. }
  assert (FN : forall g1 g2 name, ok h1 g1 -> nn g1 -> uniq g1 -> ok h2 g2 -> nn g2 -> uniq g2 -> names g1 = names g2 -> ~ In nul name ->
     option_map (option_map nname) (find_node h1 cl g1 name) = option_map (option_map nname) (find_node h2 cl g2 name)).
  { intros g1 g2 name O1 N1 U1 O2 N2 U2 EN NZn.
    destruct (FE g1 g2 name O1 N1 U1 O2 N2 U2 EN NZn) as (r1&r2&E1&E2&Q).
    destruct (FE g1 g2 (cl name) O1 N1 U1 O2 N2 U2 EN (CN _ NZn)) as (r1'&r2'&E1'&E2'&Q').
    unfold find_node. rewrite E1, E2. destruct r1, r2; cbn in *; try discriminate; [congruence|]. rewrite E1', E2'. cbn. congruence. }
  assert (R : forall ops g1 g2, ok h1 g1 -> nn g1 -> uniq g1 -> ok h2 g2 -> nn g2 -> uniq g2 -> names g1 = names g2 -> no_nul_names ops ->
    exists g1' g2', run h1 cl g1 ops = Some g1' /\ run h2 cl g2 ops = Some g2' /\ names g1' = names g2' /\
      ok h1 g1' /\ nn g1' /\ uniq g1' /\ ok h2 g2' /\ nn g2' /\ uniq g2').
  { clear ops NZ. induction ops as [|[f name] ops IH]; intros g1 g2 O1 N1 U1 O2 N2 U2 EN NZ.
    - exists g1, g2. cbn. tauto.
    - inversion NZ as [|? ? NZn NZ']; subst. cbn [snd] in NZn.
      destruct (declare_ok h1 cl CN g1 f name O1 N1 U1 NZn) as (k1&E1&O1'&N1'&U1'&_&H1).
      destruct (declare_ok h2 cl CN g2 f name O2 N2 U2 NZn) as (k2&E2&O2'&N2'&U2'&_&H2).
      cbn [run]. rewrite E1, E2. apply IH; auto.
      pose proof (FN g1 g2 name O1 N1 U1 O2 N2 U2 EN NZn) as Q. unfold names in *.
      destruct H1 as [(n1&F1&->)|(F1&HN1)], H2 as [(n2&F2&->)|(F2&HN2)]; rewrite F1, F2 in Q; cbn in Q; try discriminate; auto.
      rewrite HN1, HN2. congruence. }
  destruct (R ops (new_graph b1) (new_graph b2) A1 B1 C1 A2 B2 C2 eq_refl NZ) as (g1&g2&E1&E2&EN&O1&N1&U1&O2&N2&U2).
  exists g1, g2. split; [exact E1|]. split; [exact E2|]. split; [exact EN|]. auto.
Qed.
Print Assumptions C18_hash_irrelevant.

(** A history with a colliding hash function and a two-slot table. *)
Example C18_case :
  let h := fun _ => 7%N in let cl := fun s => L "/w/" ++ s in
  exists g, run h cl (new_graph 1) [(false, L "All"); (true, L "a.cpp"); (true, L "A.CPP"); (false, L "b")] = Some g /\
    names g = [L "All"; L "/w/a.cpp"; L "b"] /\
    option_map (option_map nname) (find_node h cl g (L "aLL")) = Some (Some (L "All")) /\
    option_map (option_map nname) (find_node h cl g (L "A.cpp")) = Some (Some (L "/w/a.cpp")) /\
    find_node h cl g (L "c") = Some None.
Proof. eexists. split; [vm_compute; reflexivity|]. repeat split; vm_compute; reflexivity. Qed.

(** Proofs about the migration: it ends. *)
From Coq Require Import List Arith NArith Bool Ascii Lia.
From Verif Require Import M_Path M_Names M_Migrate S_Migrate P_Migrate.
Import ListNotations.
Open Scope nat_scope.

(** More fuel gives the same answer. *)
Definition le_rec (r1 r2 : mst -> nat -> option nat -> res mst) : Prop :=
  forall s i h, r1 s i h <> NoFuel -> r2 s i h = r1 s i h.

Lemma each_mono : forall r1 r2, le_rec r1 r2 -> forall ds s, each r1 ds s <> NoFuel -> each r2 ds s = each r1 ds s.
Proof.
  intros r1 r2 L. induction ds as [|d ds IH]; intros s H; [reflexivity|]. cbn [each] in *.
  assert (E : r2 s (to d) None = r1 s (to d) None).
  { apply L. intros E. rewrite E in H. now apply H. }
  rewrite E. destruct (r1 s (to d) None); cbn [bind] in *; auto.
Qed.
Lemma dynamics_mono : forall r1 r2 init old, le_rec r1 r2 -> forall ds s acc,
  dynamics r1 init old ds s acc <> NoFuel -> dynamics r2 init old ds s acc = dynamics r1 init old ds s acc.
Proof.
  intros r1 r2 init old L. induction ds as [|d ds IH]; intros s acc H; [reflexivity|]. cbn [dynamics] in *.
  destruct (nth_error old (to d)) as [o|]; [|reflexivity].
  destruct (find_node (fst s) (name o)) as [j|].
  - destruct (nth_error (fst s) j) as [n|]; [|reflexivity]. destruct (negb (N.eqb (type n) (type o))); auto.
  - destruct (N.eqb (type o) file_type); [auto|]. destruct (copy_fields _ _) as [p|]; [|reflexivity].
    match type of H with bind (r1 ?x ?y ?z) _ <> _ => assert (E : r2 x y z = r1 x y z) end.
    { apply L. intros E. rewrite E in H. now apply H. }
    rewrite E. match goal with |- bind ?x _ = _ => destruct x end; cbn [bind] in *; auto.
Qed.
Definition body (rec : mst -> nat -> option nat -> res mst) (init : initialiser) (old : graph) (s : mst) (i : nat) (h : option nat) : res mst :=
  if memb i (snd s) then Done s
  else
    match nth_error (fst s) i with
    | None => Crash
    | Some n =>
        let s0 := (fst s, i :: snd s) in
        if N.eqb (type n) file_type then Done s0
        else
          bind (each rec (pre n) s0) (fun s1 =>
          bind (each rec (stat n) s1) (fun s2 =>
            match (match h with Some h => Some h | None => find_node old (name n) end) with
            | None => Done s2
            | Some h =>
                match nth_error old h, nth_error (fst s2) i with
                | Some o, Some n2 =>
                    if negb (N.eqb (type o) (type n2)) then Done s2
                    else if negb (fields_same (props o) (props n2)) then Done s2
                    else if negb (deps_match old (fst s2) (pre o) (pre n2)) then Done s2
                    else if negb (deps_match old (fst s2) (stat o) (stat n2)) then Done s2
                    else
                      let n3 := set_stat (restamp (stat o) (stat n2)) n2 in
                      bind (dynamics rec init old (dyn o)
                              (set_nth i n3 (fst s2), snd s2) []) (fun r =>
                        match snd r with
                        | None => Done (fst r)
                        | Some ds =>
                            match nth_error (fst (fst r)) i with
                            | None => Crash
                            | Some n4 => Done (set_nth i (finish ds o n4) (fst (fst r)), snd (fst r))
                            end
                        end)
                | _, _ => Crash
                end
            end))
    end.
Lemma body_mono : forall r1 r2 init old, le_rec r1 r2 -> le_rec (body r1 init old) (body r2 init old).
Proof.
  intros r1 r2 init old L s i h H. unfold body in *.
  destruct (memb i (snd s)); [reflexivity|]. destruct (nth_error (fst s) i) as [n|]; [|reflexivity]. cbv zeta in *.
  destruct (N.eqb (type n) file_type); [reflexivity|].
  assert (E1 : each r2 (pre n) (fst s, i :: snd s) = each r1 (pre n) (fst s, i :: snd s)).
  { apply each_mono; [exact L|]. intros E. rewrite E in H. now apply H. }
  rewrite E1. destruct (each r1 (pre n) (fst s, i :: snd s)) as [s1| |]; cbn [bind] in *; try reflexivity.
  assert (E2 : each r2 (stat n) s1 = each r1 (stat n) s1).
  { apply each_mono; [exact L|]. intros E. rewrite E in H. now apply H. }
  rewrite E2. destruct (each r1 (stat n) s1) as [s2| |]; cbn [bind] in *; try reflexivity.
  destruct (match h with Some h => Some h | None => find_node old (name n) end) as [h'|]; [|reflexivity].
  destruct (nth_error old h') as [o|]; [|reflexivity]. destruct (nth_error (fst s2) i) as [n2|]; [|reflexivity].
  destruct (negb (N.eqb (type o) (type n2))); [reflexivity|].
  destruct (negb (fields_same (props o) (props n2))); [reflexivity|].
  destruct (negb (deps_match old (fst s2) (pre o) (pre n2))); [reflexivity|].
  destruct (negb (deps_match old (fst s2) (stat o) (stat n2))); [reflexivity|].
  match goal with |- bind (dynamics r2 ?a ?b ?c ?d ?e) _ = _ =>
    assert (E3 : dynamics r2 a b c d e = dynamics r1 a b c d e) end.
  { apply dynamics_mono; [exact L|]. intros E. rewrite E in H. now apply H. }
  now rewrite E3.
Qed.
Lemma migrate_mono1 : forall init old f, le_rec (migrate_node f init old) (migrate_node (S f) init old).
Proof.
  intros init old. induction f as [|f L]; [intros s i h H; now destruct H|].
  change (le_rec (body (migrate_node f init old) init old) (body (migrate_node (S f) init old) init old)).
  now apply body_mono.
Qed.
Lemma migrate_mono : forall init old f f' s i h, f <= f' -> migrate_node f init old s i h <> NoFuel ->
  migrate_node f' init old s i h = migrate_node f init old s i h.
Proof.
  intros init old f f' s i h L H. induction L as [|f' L IH]; [reflexivity|].
  rewrite <- IH. apply migrate_mono1. now rewrite IH.
Qed.

(** How much there is left to do: nodes to create, nodes to visit. *)
Definition absent (g : graph) (o : node) : bool :=
  match find_node g (name o) with Some _ => false | None => true end.
Definition to_create (old g : graph) : nat := length (filter (absent g) old).
Definition to_visit (s : mst) : nat := length (filter (fun i => negb (memb i (snd s))) (seq 0 (length (fst s)))).

Lemma filter_le : forall A (p q : A -> bool) l, (forall x, In x l -> p x = true -> q x = true) ->
  length (filter p l) <= length (filter q l).
Proof.
  intros A p q. induction l as [|x l IH]; intros H; cbn; [lia|].
  assert (IH' : length (filter p l) <= length (filter q l)) by (apply IH; intros y Hy; apply H; now right).
  destruct (p x) eqn:E.
  - rewrite (H x (or_introl eq_refl) E). cbn. lia.
  - destruct (q x); cbn; lia.
Qed.
Lemma filter_lt : forall A (p q : A -> bool) l x, (forall x, In x l -> p x = true -> q x = true) ->
  In x l -> p x = false -> q x = true -> length (filter p l) < length (filter q l).
Proof.
  intros A p q. induction l as [|y l IH]; intros x H Hx Px Qx; [destruct Hx|]. cbn.
  destruct Hx as [->|Hx].
  - rewrite Px, Qx. cbn. assert (L : length (filter p l) <= length (filter q l)) by (apply filter_le; intros z Hz; apply H; now right). lia.
  - assert (L : length (filter p l) < length (filter q l)) by (apply (IH x); auto; intros z Hz; apply H; now right).
    destruct (p y) eqn:E.
    + rewrite (H y (or_introl eq_refl) E). cbn. lia.
    + destruct (q y); cbn; lia.
Qed.

Definition names_stay (g g' : graph) : Prop :=
  forall i n, nth_error g i = Some n -> exists n', nth_error g' i = Some n' /\ name n' = name n /\ type n' = type n.
Lemma find_stays : forall g g' nm, names_stay g g' -> find_node g' nm = None -> find_node g nm = None.
Proof.
  intros g g' nm K H. destruct (find_node g nm) as [j|] eqn:E; [|reflexivity]. exfalso.
  apply find_some in E as (n & Hn & En). destruct (K _ _ Hn) as (n' & Hn' & Nn & _).
  pose proof (find_none _ _ H _ _ Hn') as F. rewrite Nn in F. congruence.
Qed.
Lemma create_le : forall old g g', names_stay g g' -> to_create old g' <= to_create old g.
Proof.
  intros old g g' K. apply filter_le. intros o _. unfold absent.
  destruct (find_node g' (name o)) eqn:E; [discriminate|]. now rewrite (find_stays g g' _ K E).
Qed.
Lemma create_lt : forall old g g' h o j n, names_stay g g' -> nth_error old h = Some o -> find_node g (name o) = None ->
  nth_error g' j = Some n -> name n = name o -> to_create old g' < to_create old g.
Proof.
  intros old g g' h o j n K Ho Hg Hn Nn. apply (filter_lt _ _ _ _ o).
  - intros x _. unfold absent. destruct (find_node g' (name x)) eqn:E; [discriminate|]. now rewrite (find_stays g g' _ K E).
  - now apply nth_error_In in Ho.
  - unfold absent. destruct (find_node g' (name o)) eqn:E; [reflexivity|].
    pose proof (find_none _ _ E _ _ Hn) as F. rewrite Nn, equals_i_refl in F. discriminate.
  - unfold absent. now rewrite Hg.
Qed.

Record grow (old : graph) (s s' : mst) : Prop := {
  g_names : names_stay (fst s) (fst s');
  g_vis : incl (snd s) (snd s');
  g_len : length (fst s') = length (fst s) \/ to_create old (fst s') < to_create old (fst s) }.
Lemma grow_refl : forall old s, grow old s s.
Proof. intros old s. constructor; auto using incl_refl. intros i n H. now exists n. Qed.
Lemma grow_trans : forall old a b c, grow old a b -> grow old b c -> grow old a c.
Proof.
  intros old a b c [N1 V1 L1] [N2 V2 L2]. constructor.
  - intros i n H. apply N1 in H as (n1 & H & E1 & T1). apply N2 in H as (n2 & H & E2 & T2). exists n2. split; [exact H|]. split; congruence.
  - eauto using incl_tran.
  - pose proof (create_le old _ _ N1). pose proof (create_le old _ _ N2). lia.
Qed.

(** less is left in [s'] than in [s] *)
Definition less (old : graph) (s' s : mst) : Prop :=
  to_create old (fst s') < to_create old (fst s) \/
  (to_create old (fst s') <= to_create old (fst s) /\ to_visit s' < to_visit s).
Lemma grow_less : forall old s s0 s1, grow old s0 s1 -> less old s0 s -> less old s1 s.
Proof.
  intros old s s0 s1 [N V L] H. pose proof (create_le old _ _ N) as C. unfold less in *.
  destruct L as [L|L]; [|lia]. destruct H as [H|[H1 H2]]; [left; lia|]. right. split; [lia|].
  assert (B : to_visit s1 <= to_visit s0); [|lia]. unfold to_visit. rewrite L. apply filter_le.
  intros x _ Hx. apply negb_true_iff in Hx. apply negb_true_iff. apply memb_nIn in Hx. apply memb_nIn. auto.
Qed.
Lemma visit_less : forall old g v i n, nth_error g i = Some n -> ~ In i v -> less old (g, i :: v) (g, v).
Proof.
  intros old g v i n Hn Hv. right. split; [cbn [fst]; lia|]. unfold to_visit. cbn [fst snd]. apply (filter_lt _ _ _ _ i); cbn [snd].
  - intros x _ Hx. apply negb_true_iff in Hx. apply negb_true_iff. apply memb_nIn in Hx. apply memb_nIn. intros H. apply Hx. now right.
  - apply in_seq. apply nth_lt in Hn. lia.
  - apply negb_false_iff. apply memb_In. now left.
  - apply negb_true_iff. now apply memb_nIn.
Qed.

Section S.
Context (R : str -> nat) (init : initialiser) (old : graph) (Hinit : prepares R old init).

Lemma created_grow : forall g v p h o, nth_error old h = Some o -> type o <> file_type -> find_node g (name o) = None ->
  grow old (g, v) (init (g ++ [created o p]) (length g), v).
Proof.
  intros g v p h o Ho Ht Hf. destruct Hinit as [Po Pn _ _].
  assert (Fo : from_old old (created o p)) by (exists h, o; repeat split; auto).
  assert (N : names_stay g (init (g ++ [created o p]) (length g))).
  { intros i n H. exists n. split; [|now split]. now apply Po. }
  destruct (Pn g _ Fo) as (n' & Hn' & Nn & _).
  constructor; cbn; auto using incl_refl. right. now apply (create_lt old _ _ h o (length g) n').
Qed.
Lemma file_grow : forall g v h o, nth_error old h = Some o -> find_node g (name o) = None ->
  grow old (g, v) (g ++ [created o FNil], v).
Proof.
  intros g v h o Ho Hf.
  assert (N : names_stay g (g ++ [created o FNil])).
  { intros i n H. exists n. split; [|now split]. rewrite nth_error_app1; [exact H|now apply nth_lt in H]. }
  constructor; cbn; auto using incl_refl. right. apply (create_lt old _ _ h o (length g) (created o FNil)); auto.
  rewrite nth_error_app2 by lia. now rewrite Nat.sub_diag.
Qed.

Definition growing (rec : mst -> nat -> option nat -> res mst) : Prop :=
  forall s i h s', rec s i h = Done s' -> grow old s s'.
Lemma each_grow : forall rec, growing rec -> forall ds s s', each rec ds s = Done s' -> grow old s s'.
Proof.
  intros rec G. induction ds as [|d ds IH]; intros s s' H; [injection H as <-; apply grow_refl|].
  cbn [each] in H. destruct (rec s (to d) None) as [s1| |] eqn:E; try discriminate H. cbn [bind] in H.
  eauto using grow_trans.
Qed.
Lemma dynamics_grow : forall rec, growing rec -> forall ds s acc s' r,
  dynamics rec init old ds s acc = Done (s', r) -> grow old s s'.
Proof.
  intros rec G. induction ds as [|d ds IH]; intros s acc s' r H; [injection H as <- <-; apply grow_refl|].
  cbn [dynamics] in H. destruct (nth_error old (to d)) as [o|] eqn:Eo; [|discriminate].
  destruct s as [g v]. cbn [fst snd] in H. destruct (find_node g (name o)) as [j|] eqn:Ef.
  - destruct (nth_error g j) as [n|]; [|discriminate]. destruct (negb (N.eqb (type n) (type o))).
    + injection H as <- <-. apply grow_refl.
    + now apply IH in H.
  - destruct (N.eqb_spec (type o) file_type) as [Et|Et].
    + apply IH in H. eapply grow_trans; [|exact H]. now apply (file_grow g v (to d)).
    + destruct (copy_fields _ _) as [p|]; [|discriminate].
      match type of H with bind ?x _ = _ => destruct x as [s1| |] eqn:Er end; try discriminate H. cbn [bind] in H.
      apply IH in H. apply G in Er. eapply grow_trans; [|exact H]. eapply grow_trans; [|exact Er]. now apply (created_grow g v p (to d)).
Qed.
Lemma set_grow : forall g v i n n', nth_error g i = Some n -> name n' = name n -> type n' = type n -> grow old (g, v) (set_nth i n' g, v).
Proof.
  intros g v i n n' Hn Nn Nt. constructor; cbn; auto using incl_refl, set_nth_length.
  intros j m Hm. destruct (Nat.eq_dec j i) as [->|Ne].
  - exists n'. rewrite set_nth_same by (now apply nth_lt in Hn). split; [reflexivity|]. split; congruence.
  - exists m. rewrite set_nth_other by exact Ne. auto.
Qed.
Lemma migrate_grow : forall f, growing (migrate_node f init old).
Proof.
  induction f as [|f G]; intros s i h s' H; [discriminate|]. cbn [migrate_node] in H.
  destruct (memb i (snd s)); [injection H as <-; apply grow_refl|].
  destruct (nth_error (fst s) i) as [n|] eqn:En; [|discriminate]. cbv zeta in H.
  assert (G0 : grow old s (fst s, i :: snd s)).
  { constructor; cbn; auto. - intros j m Hm. now exists m. - intros x Hx. now right. }
  destruct (N.eqb (type n) file_type); [injection H as <-; exact G0|].
  destruct (each _ (pre n) _) as [s1| |] eqn:E1; try discriminate H. cbn [bind] in H. apply (each_grow _ G) in E1.
  destruct (each _ (stat n) _) as [s2| |] eqn:E2; try discriminate H. cbn [bind] in H. apply (each_grow _ G) in E2.
  assert (G2 : grow old s s2) by eauto using grow_trans.
  destruct (match h with Some h => Some h | None => find_node old (name n) end) as [h'|]; [|injection H as <-; exact G2].
  destruct (nth_error old h') as [o|]; [|discriminate]. destruct (nth_error (fst s2) i) as [n2|] eqn:En2; [|discriminate].
  destruct (negb (N.eqb (type o) (type n2))); [injection H as <-; exact G2|].
  destruct (negb (fields_same (props o) (props n2))); [injection H as <-; exact G2|].
  destruct (negb (deps_match old (fst s2) (pre o) (pre n2))); [injection H as <-; exact G2|].
  destruct (negb (deps_match old (fst s2) (stat o) (stat n2))); [injection H as <-; exact G2|].
  destruct (dynamics _ _ _ _ _ _) as [[s4 r]| |] eqn:E4; try discriminate H. cbn [bind fst snd] in H. apply (dynamics_grow _ G) in E4.
  assert (G4 : grow old s s4).
  { eapply grow_trans; [exact G2|]. eapply grow_trans; [|exact E4]. destruct s2 as [g2 v2]. now apply (set_grow g2 v2 i n2). }
  destruct r as [ds|]; [|injection H as <-; exact G4].
  destruct (nth_error (fst s4) i) as [n4|] eqn:En4; [|discriminate]. injection H as <-.
  eapply grow_trans; [exact G4|]. destruct s4 as [g4 v4]. now apply (set_grow g4 v4 i n4).
Qed.

Definition ends (s : mst) : Prop := forall i h, exists f, migrate_node f init old s i h <> NoFuel.

Lemma each_ends : forall ds s0, (forall s1, grow old s0 s1 -> ends s1) -> exists f, each (migrate_node f init old) ds s0 <> NoFuel.
Proof.
  induction ds as [|d ds IH]; intros s0 H; [exists 0; discriminate|].
  destruct (H s0 (grow_refl old s0) (to d) None) as (f1 & H1).
  destruct (migrate_node f1 init old s0 (to d) None) as [s1| |] eqn:E1; [| |now destruct H1].
  - destruct (IH s1) as (f2 & H2). { intros s2 G. apply H. apply migrate_grow in E1. eauto using grow_trans. }
    exists (Nat.max f1 f2). cbn [each]. rewrite (migrate_mono init old f1) by (try lia; congruence). rewrite E1. cbn [bind].
    rewrite (each_mono (migrate_node f2 init old)); [exact H2| |exact H2].
    intros s i h Hn. apply migrate_mono; [lia|exact Hn].
  - exists f1. cbn [each]. now rewrite E1.
Qed.
Lemma dynamics_ends : forall ds s0 acc, (forall s1, grow old s0 s1 -> to_create old (fst s1) < to_create old (fst s0) -> ends s1) ->
  exists f, dynamics (migrate_node f init old) init old ds s0 acc <> NoFuel.
Proof.
  induction ds as [|d ds IH]; intros s0 acc H; [exists 0; discriminate|]. cbn [dynamics].
  destruct (nth_error old (to d)) as [o|] eqn:Eo; [|exists 0; discriminate].
  destruct s0 as [g v]. cbn [fst snd] in *. destruct (find_node g (name o)) as [j|] eqn:Ef.
  - destruct (nth_error g j) as [n|]; [|exists 0; discriminate]. destruct (negb (N.eqb (type n) (type o))); [exists 0; discriminate|].
    now apply IH.
  - destruct (N.eqb_spec (type o) file_type) as [Et|Et].
    + apply IH. intros s1 G1 L1. pose proof (file_grow g v (to d) o Eo Ef) as G0. apply H; [eauto using grow_trans|].
      pose proof (create_le old _ _ (g_names _ _ _ G0)) as C. cbn in C, L1. lia.
    + destruct (copy_fields (g ++ [created o FNil]) (props o)) as [p|]; [|exists 0; discriminate].
      pose proof (created_grow g v p (to d) o Eo Et Ef) as G0. set (s1 := (init (g ++ [created o p]) (length g), v)) in *.
      assert (C0 : to_create old (fst s1) < to_create old g).
      { destruct (g_len _ _ _ G0) as [L|L]; [|exact L]. exfalso. destruct Hinit as [_ Pn _ _].
        destruct (Pn g (created o p)) as (n' & Hn' & _); [exists (to d), o; repeat split; auto|]. apply nth_lt in Hn'. cbn in L. lia. }
      destruct (H s1 G0 C0 (length g) (Some (to d))) as (f1 & H1).
      destruct (migrate_node f1 init old s1 (length g) (Some (to d))) as [s2| |] eqn:E1; [| |now destruct H1].
      * destruct (IH s2 (acc ++ [Dep (length g) (seen d) (weak d)])) as (f2 & H2).
        { intros s3 G3 L3. apply migrate_grow in E1. apply H; [eauto using grow_trans|].
          pose proof (create_le old _ _ (g_names _ _ _ E1)). lia. }
        exists (Nat.max f1 f2). rewrite (migrate_mono init old f1) by (try lia; congruence). rewrite E1. cbn [bind].
        rewrite (dynamics_mono (migrate_node f2 init old)); [exact H2| |exact H2].
        intros s i h Hn. apply migrate_mono; [lia|exact Hn].
      * exists f1. now rewrite E1.
Qed.

Lemma step_ends : forall s, (forall s', less old s' s -> ends s') -> ends s.
Proof.
  intros s H i h. destruct s as [g v]. destruct (memb i v) eqn:Em.
  { exists 1. cbn [migrate_node fst snd]. now rewrite Em. }
  destruct (nth_error g i) as [n|] eqn:En; [|exists 1; cbn [migrate_node fst snd]; now rewrite Em, En].
  destruct (N.eqb (type n) file_type) eqn:Et; [exists 1; cbn [migrate_node fst snd]; now rewrite Em, En, Et|].
  apply memb_nIn in Em as Nv. pose proof (visit_less old g v i n En Nv) as L0.
  destruct (each_ends (pre n) (g, i :: v)) as (f1 & H1). { intros s1 G. apply H. eauto using grow_less. }
  destruct (each (migrate_node f1 init old) (pre n) (g, i :: v)) as [s1| |] eqn:E1; [| |now destruct H1].
  2:{ exists (S f1). cbn [migrate_node fst snd]. rewrite Em, En, Et. now rewrite E1. }
  pose proof (each_grow _ (migrate_grow f1) _ _ _ E1) as G1. pose proof (grow_less old _ _ _ G1 L0) as L1.
  destruct (each_ends (stat n) s1) as (f2 & H2). { intros s2 G. apply H. eauto using grow_less. }
  destruct (each (migrate_node f2 init old) (stat n) s1) as [s2| |] eqn:E2; [| |now destruct H2].
  2:{ exists (S (Nat.max f1 f2)). cbn [migrate_node fst snd]. rewrite Em, En, Et.
      rewrite (each_mono (migrate_node f1 init old)); [|intros s i' h' Hn; apply migrate_mono; [lia|exact Hn]|congruence].
      rewrite E1. cbn [bind].
      rewrite (each_mono (migrate_node f2 init old)); [|intros s i' h' Hn; apply migrate_mono; [lia|exact Hn]|congruence].
      now rewrite E2. }
  pose proof (each_grow _ (migrate_grow f2) _ _ _ E2) as G2. pose proof (grow_less old _ _ _ G2 L1) as L2.
  assert (D : forall o n2, nth_error (fst s2) i = Some n2 -> exists f3,
     dynamics (migrate_node f3 init old) init old (dyn o) (set_nth i (set_stat (restamp (stat o) (stat n2)) n2) (fst s2), snd s2) [] <> NoFuel).
  { intros o n2 Hn2. apply dynamics_ends. intros s3 G3 _. apply H. eapply grow_less; [|exact L2]. eapply grow_trans; [|exact G3].
    destruct s2 as [g2 v2]. now apply (set_grow g2 v2 i n2). }
  assert (Go : forall f3, (forall o n2, nth_error (fst s2) i = Some n2 -> nth_error old (match (match h with Some h => Some h | None => find_node old (name n) end) with Some x => x | None => 0 end) = Some o ->
     dynamics (migrate_node f3 init old) init old (dyn o) (set_nth i (set_stat (restamp (stat o) (stat n2)) n2) (fst s2), snd s2) [] <> NoFuel) ->
     migrate_node (S (Nat.max f3 (Nat.max f1 f2))) init old (g, v) i h <> NoFuel).
  { intros f3 H3. cbn [migrate_node fst snd]. rewrite Em, En, Et.
    rewrite (each_mono (migrate_node f1 init old)); [|intros s i' h' Hn; apply migrate_mono; [lia|exact Hn]|congruence].
    rewrite E1. cbn [bind].
    rewrite (each_mono (migrate_node f2 init old)); [|intros s i' h' Hn; apply migrate_mono; [lia|exact Hn]|congruence].
    rewrite E2. cbn [bind].
    destruct (match h with Some h => Some h | None => find_node old (name n) end) as [h'|]; [|discriminate].
    destruct (nth_error old h') as [o|] eqn:Eo; [|discriminate]. destruct (nth_error (fst s2) i) as [n2|]; [|discriminate].
    specialize (H3 o n2 eq_refl eq_refl).
    destruct (negb (N.eqb (type o) (type n2))); [discriminate|].
    destruct (negb (fields_same (props o) (props n2))); [discriminate|].
    destruct (negb (deps_match old (fst s2) (pre o) (pre n2))); [discriminate|].
    destruct (negb (deps_match old (fst s2) (stat o) (stat n2))); [discriminate|].
    rewrite (dynamics_mono (migrate_node f3 init old)); [|intros s i' k' Hn; apply migrate_mono; [lia|exact Hn]|exact H3].
    destruct (dynamics _ _ _ _ _ _) as [[s4 [ds|]]| |]; cbn [bind fst snd]; try discriminate; [|now destruct H3].
    destruct (nth_error (fst s4) i); discriminate. }
  destruct (nth_error (fst s2) i) as [n2|] eqn:En2.
  - destruct (nth_error old (match (match h with Some h => Some h | None => find_node old (name n) end) with Some x => x | None => 0 end)) as [o|] eqn:Eo.
    + destruct (D o n2 eq_refl) as (f3 & H3). eexists. apply (Go f3). intros o' n' [= <-] [= <-]. exact H3.
    + eexists. apply (Go 0). intros o' n' _. discriminate.
  - eexists. apply (Go 0). discriminate.
Qed.

Lemma all_ends : forall s, ends s.
Proof.
  enough (H : forall a b s, to_create old (fst s) <= a -> to_visit s <= b -> ends s) by (intros s; eapply H; reflexivity).
  induction a as [|a IHa]; induction b as [|b IHb]; intros s Ha Hb; apply step_ends; intros s' [L|[L1 L2]]; try lia.
  - apply IHb; lia.
  - apply (IHa (to_visit s')); lia.
  - apply (IHa (to_visit s')); lia.
  - apply IHb; lia.
Qed.

Lemma migrate_all_mono : forall f f' is s, f <= f' -> migrate_all f init old is s <> NoFuel ->
  migrate_all f' init old is s = migrate_all f init old is s.
Proof.
  intros f f' is. induction is as [|i is IH]; intros s L H; [reflexivity|]. cbn [migrate_all] in *.
  assert (E : migrate_node f' init old s i None = migrate_node f init old s i None).
  { apply migrate_mono; [exact L|]. intros E. rewrite E in H. now apply H. }
  rewrite E. destruct (migrate_node f init old s i None); cbn [bind] in *; auto.
Qed.
Lemma migrate_all_ends : forall is s, exists f, migrate_all f init old is s <> NoFuel.
Proof.
  induction is as [|i is IH]; intros s; [exists 0; discriminate|].
  destruct (all_ends s i None) as (f1 & H1). destruct (migrate_node f1 init old s i None) as [s1| |] eqn:E1; [| |now destruct H1].
  - destruct (IH s1) as (f2 & H2). exists (Nat.max f1 f2). cbn [migrate_all].
    rewrite (migrate_mono init old f1) by (try lia; congruence). rewrite E1. cbn [bind].
    rewrite (migrate_all_mono f2) by (try lia; exact H2). exact H2.
  - exists f1. cbn [migrate_all]. now rewrite E1.
Qed.
Lemma migrate_ends : forall new, exists f, forall f', f <= f' -> migrate f' init old new <> NoFuel /\
  migrate f' init old new = migrate f init old new.
Proof.
  intros new. destruct (migrate_all_ends (seq 0 (length new)) (new, [])) as (f & H). exists f. intros f' L. unfold migrate.
  rewrite (migrate_all_mono f f') by assumption.
  destruct (migrate_all f init old (seq 0 (length new)) (new, [])); cbn [bind]; split; try discriminate; try reflexivity; now destruct H.
Qed.
End S.

(** C54: what assignments in BFF files do. *)
From Coq Require Import String List Arith NArith ZArith Bool Ascii Lia.
Import ListNotations.
Require Import Verif.M_Path Verif.M_Scope Verif.S_Scope Verif.P_Scope Verif.P_Scope2 Verif.T_Scope Verif.S_Assign Verif.P_Assign Verif.P_Assign2.
Open Scope nat_scope.

(** The right hand side means one value at most, and an operator has one result at most. *)
Theorem C54_one_result : forall st rh x y o old a b,
  (evaluates st rh x -> evaluates st rh y -> x = y) /\ (effect o old x a -> effect o old x b -> a = b).
Proof.
  intros st rh x y o old a b. split.
  - intros H K. destruct (any_ok st Assign None rh x x ltac:(discriminate) H (new_var x)) as [p E].
    destruct (any_ok st Assign None rh y y ltac:(discriminate) K (new_var y)) as [q F]. rewrite E in F. now injection F.
  - intros H K. apply store_var_ok in H as [p E]. apply store_var_ok in K as [q F]. rewrite E in F. now injection F.
Qed.
Print Assumptions C54_one_result.

Lemma any_note : forall n d f t o old rh, store_any ({| vars := vars f; last := Some (n, d) |} :: t) o old rh = store_any (f :: t) o old rh.
Proof.
  intros n d f t o old rh. assert (V : view ({| vars := vars f; last := Some (n, d) |} :: t) (f :: t)) by (intros m; reflexivity).
  destruct rh as [raw|z|b|pa m|l|b]; cbn [store_any]; try reflexivity.
  - unfold subst. now rewrite (view_subst _ _ raw Plain V).
  - rewrite (view_name _ _ m V). destruct pa; reflexivity.
  - assert (El : forall k x y, elements ({| vars := vars f; last := Some (n, d) |} :: t) o l k x y = elements (f :: t) o l k x y).
    { induction l as [|[raw|pa m] l IH]; intros k x y; cbn [elements]; [reflexivity| |].
      - destruct (negb (compatible k true)); [reflexivity|]. unfold subst. rewrite (view_subst _ _ raw Plain V). destruct o; try reflexivity; apply bind_ext; intros z; apply IH.
      - rewrite (view_name _ _ m V). apply bind_ext. intros z.
        replace (source ({| vars := vars f; last := Some (n, d) |} :: t) pa z) with (source (f :: t) pa z) by (destruct pa; reflexivity).
        destruct (source (f :: t) pa z) as [v|]; [|reflexivity]. destruct o; try reflexivity; destruct (is_empty_array v); try apply IH; destruct v; try reflexivity;
          match goal with |- (if ?b then _ else _) = _ => destruct b end; try reflexivity; apply IH. }
    f_equal. unfold store_array. apply bind_ext. intros a. now rewrite El.
Qed.
Lemma stands_old : forall st n old, stands st n old -> old_value n None st = old.
Proof.
  intros st n [y|] H; cbn [stands] in H.
  - now apply sees_get.
  - apply unknown_lookup in H. unfold old_value. cbn [get_var]. now rewrite H.
Qed.
Lemma set_here : forall r n m o rh s f t, stack s = f :: t -> named (f :: t) n m -> (forall b, rh <> RStruct b) ->
  parse (S r) [SSet false n o rh] s = bind (store_any (f :: t) o (old_value m None (f :: t)) rh) (fun p =>
    Good (with_stack ((if fst p then swap_frame m (snd p) {| vars := vars f; last := Some (m, None) |}
                       else put_frame m (snd p) {| vars := vars f; last := Some (m, None) |}) :: t) s)).
Proof.
  intros r n m o rh s f t Es Nm Ns. rewrite parse_one. cbn [step]. rewrite Es. apply var_name_named in Nm. rewrite Nm. cbn [bind note].
  rewrite declare_any by exact Ns. cbn [stack with_stack]. rewrite any_note.
  change (old_value m None ({| vars := vars f; last := Some (m, None) |} :: t)) with (old_value m None (f :: t)).
  destruct (store_any (f :: t) o (old_value m None (f :: t)) rh) as [[[|] v]|e|u]; reflexivity.
Qed.

(** .Name = rhs, .Name + rhs and .Name - rhs: the name then stands for what the operator makes of what it stood for and of the value of the
    right hand side; the other names and the scopes around are as they were. *)
Theorem C54_assign : forall r s nm n o rh old x new f t,
  stack s = f :: t -> named (stack s) nm n -> stands (stack s) n old -> (o = Minus -> rh <> RArray []) ->
  evaluates (stack s) rh x -> effect o old x new ->
  exists s' f', parse (S r) [SSet false nm o rh] s = Good s' /\ stack s' = f' :: t /\ sees (stack s') n new /\
    (forall m y, m <> n -> (sees (stack s') m y <-> sees (stack s) m y)) /\ out s' = out s /\ funs s' = funs s.
Proof.
  intros r s nm n o rh old x new f t Es Nm St No Ev Ef. rewrite Es in *.
  assert (Ns : forall b, rh <> RStruct b) by (intros b ->; inversion Ev).
  rewrite (set_here r nm n o rh s f t Es Nm Ns), (stands_old _ _ _ St).
  destruct (any_ok _ _ _ _ _ _ No Ev Ef) as [sw K]. rewrite K. cbn [bind fst snd].
  set (f1 := {| vars := vars f; last := Some (n, None) |}).
  assert (X : exists f', (if sw then swap_frame n new f1 else put_frame n new f1) = f' /\ (f' = put_frame n new f1 \/ f' = swap_frame n new f1)) by (destruct sw; eauto).
  destruct X as [f' [X1 X2]]. rewrite X1. destruct (put_or_swap _ _ _ _ X2) as [D1 D2].
  eexists. exists f'. split; [reflexivity|]. cbn [stack with_stack out funs]. split; [reflexivity|]. split; [now apply sees_here|]. split; [|split; reflexivity].
  intros m y Nmn.
  assert (Sil : silent f' m <-> silent f m).
  { rewrite !silent_find. destruct X2 as [-> | ->]; [rewrite local_put_other|rewrite local_swap_other]; try exact Nmn; reflexivity. }
  split; intros H; inversion H; subst.
  - apply sees_here. now apply D2.
  - apply sees_out; [now apply Sil|assumption].
  - apply sees_here. now apply D2.
  - apply sees_out; [now apply Sil|assumption].
Qed.
Print Assumptions C54_assign.

(** And these are all the assignments that are accepted: any other one is an error. *)
Theorem C54_assign_only : forall r s s' nm o rh, stack s <> [] -> (forall b, rh <> RStruct b) -> (o = Minus -> rh <> RArray []) ->
  parse (S r) [SSet false nm o rh] s = Good s' ->
  exists n old x new, named (stack s) nm n /\ stands (stack s) n old /\ evaluates (stack s) rh x /\ effect o old x new /\ sees (stack s') n new.
Proof.
  intros r s s' nm o rh Ne Ns No H. destruct (stack s) as [|f t] eqn:Es; [congruence|].
  assert (Nm : exists n, named (f :: t) nm n).
  { rewrite parse_one in H. cbn [step] in H. rewrite Es in H. apply bind_good in H as [n [H _]]. exists n. now apply var_name_named. }
  destruct Nm as [n Nm]. rewrite (set_here r nm n o rh s f t Es Nm Ns) in H. apply bind_good in H as [[sw v] [H1 H]]. injection H as <-.
  apply any_only in H1 as [x [Ev Ef]]; [|exact No]. exists n, (old_value n None (f :: t)), x, v. split; [exact Nm|].
  split; [|split; [exact Ev|split; [exact Ef|]]].
  - destruct (old_value n None (f :: t)) as [y|] eqn:E; cbn [stands]; [now apply sees_get|]. apply unknown_lookup. unfold old_value in E. cbn [get_var] in E.
    destruct (lookup n (f :: t)) as [[i w]|]; [discriminate|reflexivity].
  - cbn [stack with_stack]. apply sees_here. refine (proj1 (put_or_swap n v {| vars := vars f; last := Some (n, None) |} _ _)). destruct sw; [now right|now left].
Qed.
Print Assumptions C54_assign_only.

(** ^Name: the same, for the variable of the nearest outer scope that declares it. *)
Theorem C54_assign_outer : forall r s n o rh f t1 g t2 v x new,
  stack s = f :: t1 ++ g :: t2 -> (forall h, In h t1 -> silent h n) -> has g n v -> frozen v = 0%N -> (o = Minus -> rh <> RArray []) ->
  evaluates (stack s) rh x -> effect o (Some (val v)) x new ->
  exists s' f' g', parse (S r) [SSet true (NPlain n) o rh] s = Good s' /\ stack s' = f' :: t1 ++ g' :: t2 /\ vars f' = vars f /\
    declares g' n new /\ (forall m y, m <> n -> (declares g' m y <-> declares g m y)) /\ out s' = out s /\ funs s' = funs s.
Proof.
  intros r s n o rh f t1 g t2 v x new Es Q Hv Fz No Ev Ef. rewrite Es in *.
  assert (Ns : forall b, rh <> RStruct b) by (intros b ->; inversion Ev).
  rewrite parse_one. cbn [step var_name bind]. rewrite Es. unfold parent_decl. cbn [tl].
  assert (Lk : lookup n (t1 ++ g :: t2) = Some (length t1, v)).
  { clear -Q Hv. induction t1 as [|h t1 IH]; cbn [app lookup length].
    - apply has_find in Hv. now rewrite Hv.
    - assert (Hh : silent h n) by (apply Q; now left). apply silent_find in Hh. rewrite Hh, IH; [reflexivity|]. intros k Hk. apply Q. now right. }
  rewrite Lk. cbn [shift plus]. rewrite Fz. cbn [N.ltb N.compare]. cbn [note]. rewrite declare_any by exact Ns. cbn [stack with_stack].
  set (f1 := {| vars := vars f; last := Some (n, Some (S (length t1))) |}).
  assert (Ov : old_value n (Some (S (length t1))) (f1 :: t1 ++ g :: t2) = Some (val v)).
  { unfold old_value, get_var. cbn [nth_error]. rewrite nth_error_app2, Nat.sub_diag by lia. cbn [nth_error]. apply has_find in Hv. now rewrite Hv. }
  rewrite Ov. unfold f1 at 1. rewrite any_note. destruct (any_ok _ _ _ _ _ _ No Ev Ef) as [sw K]. rewrite K. cbn [bind fst snd].
  assert (X : forall h : frame -> frame, upd_nth (S (length t1)) h (f1 :: t1 ++ g :: t2) = f1 :: t1 ++ h g :: t2).
  { intros h. cbn [upd_nth]. f_equal. clear. induction t1 as [|k t1 IH]; cbn; [reflexivity|]. now rewrite IH. }
  eexists. exists f1, (if sw then swap_frame n new g else put_frame n new g). split; [reflexivity|]. cbn [stack with_stack at_ out funs].
  split; [unfold set_var; cbn [at_]; destruct sw; apply X|]. split; [reflexivity|].
  destruct (put_or_swap n new g (if sw then swap_frame n new g else put_frame n new g)) as [D1 D2]; [destruct sw; [now right|now left]|].
  split; [exact D1|]. split; [exact D2|]. split; reflexivity.
Qed.
Print Assumptions C54_assign_outer.

(** A text in quotes, printed: variables are replaced by their values, '^' makes the next character stand for itself; anything else is an error. *)
Theorem C54_print_text : forall r s raw s',
  parse (S r) [SPrintText raw] s = Good s' <-> exists t, reads (stack s) raw t /\ s' = say (PrintedText t) s.
Proof.
  intros r s raw s'. rewrite parse_one. cbn [step].
  assert (V : view (fresh :: stack s) (stack s)) by (intros n; unfold old_value; cbn [get_var]; rewrite lookup_fresh; destruct (lookup n (stack s)) as [[i v]|]; reflexivity).
  unfold subst. rewrite (view_subst _ _ raw Plain V). split.
  - intros H. apply bind_good in H as [t [H1 H]]. injection H as <-. exists t. split; [now apply subst_reads|reflexivity].
  - intros [t [R ->]]. apply subst_reads in R. unfold subst in R. now rewrite R.
Qed.
Print Assumptions C54_print_text.

(** If: the body is a scope that is run exactly when the condition holds. *)
Theorem C54_if : forall r s negated n b,
  (forall c, sees (stack s) n (VBool c) -> parse (S r) [SIf negated (NPlain n) b] s = if Bool.eqb c negated then Good s else parse (S r) [SScope b] s) /\
  (forall x, sees (stack s) n x -> (forall c, x <> VBool c) -> parse (S r) [SIf negated (NPlain n) b] s = Fail 1050) /\
  (unknown (stack s) n -> parse (S r) [SIf negated (NPlain n) b] s = Fail 1009).
Proof.
  intros r s negated n b. rewrite !parse_one. cbn [step var_name bind]. rewrite lookup_fresh. split; [|split].
  - intros c H. apply sees_lookup in H as [i [v [E V]]]. rewrite E. cbn [shift]. rewrite V. destruct c, negated; reflexivity.
  - intros x H N. apply sees_lookup in H as [i [v [E V]]]. rewrite E. cbn [shift]. rewrite V. destruct x; try reflexivity. exfalso. now apply (N b0).
  - intros H. apply unknown_lookup in H. now rewrite H.
Qed.
Print Assumptions C54_if.

(** A function such as Library( 'x' ) { … }: its properties are what their names stand for at the end of the braces. *)
Theorem C54_block : forall r s props b,
  (forall s1, parse r b (with_stack (fresh :: stack s) s) = Good s1 ->
     exists l, parse (S r) [SBlock props b] s = Good (with_stack (tl (stack s1)) (say (Read l) s1)) /\ Forall2 (stands (stack s1)) props l) /\
  (forall e, parse r b (with_stack (fresh :: stack s) s) = Fail e -> parse (S r) [SBlock props b] s = Fail e).
Proof.
  intros r s props b. rewrite parse_one. cbn [step]. split; intros x H; rewrite H; cbn [bind]; [|reflexivity].
  eexists. split; [reflexivity|]. clear H. induction props as [|p l IH]; cbn; constructor; [|exact IH].
  destruct (old_value p None (stack x)) as [y|] eqn:E; cbn [stands]; [now apply sees_get|]. apply unknown_lookup. unfold old_value in E. cbn [get_var] in E.
  destruct (lookup p (stack x)) as [[i w]|]; [discriminate|reflexivity].
Qed.
Print Assumptions C54_block.

(** A struct literal: what is declared between the brackets are the members. *)
Theorem C54_struct_literal : forall r s n b f t old, proper (stack s) -> stack s = f :: t -> stands (stack s) n old -> no_caret b = true ->
  (old = None \/ (exists m, old = Some (VStruct m)) ->
   forall s1, parse r b (with_stack (fresh :: {| vars := vars f; last := Some (n, None) |} :: t) s) = Good s1 ->
   exists s' top, parse (S r) [SSet false (NPlain n) Assign (RStruct b)] s = Good s' /\ stack s1 = top :: tl (stack s1) /\
     sees (stack s') n (VStruct (map (fun v => (vname v, val v)) (vars top))) /\ tl (stack s') = t) /\
  (forall x, old = Some x -> (forall m, x <> VStruct m) -> parse (S r) [SSet false (NPlain n) Assign (RStruct b)] s = Fail 1034) /\
  (forall o, o <> Assign -> parse (S r) [SSet false (NPlain n) o (RStruct b)] s = Fail 1027).
Proof.
  intros r s n b f t old P Es St Nc. assert (C := proper_counts _ P). rewrite Es in C, St.
  assert (Ov : old_value n None ({| vars := vars f; last := Some (n, None) |} :: t) = old) by (change (old_value n None (f :: t) = old); now apply stands_old).
  rewrite !parse_one. cbn [step var_name bind]. rewrite Es. cbn [note declare with_stack stack]. rewrite Ov. split; [|split].
  - intros Ho s1 H.
    assert (Q := parse_ok false r ltac:(discriminate) false b (with_stack (fresh :: {| vars := vars f; last := Some (n, None) |} :: t) s)). rewrite H in Q.
    destruct Q as [Q1 [Q2 _]]; [intros _; exact Nc|discriminate|apply good_fresh; inversion C; constructor; assumption|].
    cbn [stack with_stack tl] in Q2. apply kept_stack_eq in Q2.
    destruct (stack s1) as [|top rest] eqn:E1; [discriminate|]. cbn [tl] in Q2. subst rest.
    assert (X : (match old with None => true | Some (VStruct _) => true | _ => false end) = true) by (destruct Ho as [->|[m ->]]; reflexivity).
    rewrite X. unfold with_stack in H |- *. cbn [stack funs out] in H |- *. rewrite H. cbn [bind]. rewrite E1. cbn [nth_error at_].
    assert (Lo : match local n {| vars := vars f; last := Some (n, None) |} with None | Some {| val := VStruct _ |} => True | _ => False end).
    { destruct (local n {| vars := vars f; last := Some (n, None) |}) as [[vn vv vf]|] eqn:E; [|exact I].
      assert (Y : old = Some vv) by (rewrite <- Ov; unfold old_value; cbn [get_var lookup]; rewrite E; reflexivity).
      destruct Ho as [->|[m ->]]; [discriminate|]. injection Y as <-. exact I. }
    set (f1 := {| vars := vars f; last := Some (n, None) |}) in *.
    exists (with_stack (set_var n (VStruct (map (fun v => (vname v, val v)) (vars top))) None (f1 :: t)) s1), top.
    split; [destruct (local n f1) as [[vn [] vf]|]; try contradiction; reflexivity|]. split; [reflexivity|].
    split; [|reflexivity]. cbn [stack with_stack set_var at_ upd_nth]. apply sees_here. exact (proj1 (put_or_swap n _ _ _ (or_introl eq_refl))).
  - intros x -> N. destruct x; try reflexivity. exfalso. now apply (N m).
  - intros o N. destruct o; [congruence|reflexivity|reflexivity].
Qed.
Print Assumptions C54_struct_literal.

Lemma parse_tidy : forall r b s n x, parse r b {| stack := [fresh]; funs := []; out := [] |} = Good s -> sees (stack s) n x -> tidy x.
Proof.
  intros r b s n x H Sn. apply (neat_sees (stack s) n); [|exact Sn]. apply (parse_neat r b _ s H). unfold neat_all. cbn [stack]. constructor; [apply neat_fresh|constructor].
Qed.
(** The members of every struct have different names, whatever the program. *)
Theorem C54_members_distinct : forall b s n x, run b = Good s -> sees (stack s) n x -> tidy x.
Proof.
  intros b s n x. exact (parse_tidy 126 b s n x).
Qed.
Print Assumptions C54_members_distinct.

(** Using: the members of the struct become variables of the current scope, with their values; the other variables are as they were. *)
Theorem C54_using : forall r s (parent : bool) n m f t, stack s = f :: t -> sees (if parent then t else f :: t) n (VStruct m) -> tidy (VStruct m) ->
  exists s' f', parse (S r) [SUsing parent (NPlain n)] s = Good s' /\ stack s' = f' :: t /\ out s' = out s /\ funs s' = funs s /\
    (forall k x, In (k, x) m -> declares f' k x) /\
    (forall k x, ~ In k (map fst m) -> (declares f' k x <-> declares f k x)).
Proof.
  intros r s parent n m f t Es Sn Td. rewrite parse_one. cbn [step var_name bind]. rewrite Es. inversion Td as [| | | |? Nd _|]; subst.
  assert (X : exists i v, (if parent then parent_decl2 n (fresh :: f :: t) else lookup n (fresh :: f :: t)) = Some (i, v) /\ val v = VStruct m).
  { apply sees_lookup in Sn as [i [v [E V]]]. destruct parent.
    - unfold parent_decl2. cbn [tl]. rewrite E. cbn. eauto.
    - rewrite lookup_fresh, E. cbn. eauto. }
  destruct X as [i [v [E V]]]. rewrite E, V. eexists. exists (import (if parent then None else Some n) m f).
  split; [reflexivity|]. split; [reflexivity|]. split; [reflexivity|]. split; [reflexivity|].
  destruct (import_values (if parent then None else Some n) m f Nd) as [V1 V2]. split.
  - intros k x H. destruct (V1 k x H) as [w [W1 W2]]. rewrite <- W2. now apply find_declares.
  - intros k x H. apply declares_local. now apply V2.
Qed.
Print Assumptions C54_using.
(** Using something that is not a struct, or not there, is an error. *)
Theorem C54_using_errors : forall r s n f t, stack s = f :: t ->
  (forall x, sees (stack s) n x -> (forall m, x <> VStruct m) -> parse (S r) [SUsing false (NPlain n)] s = Fail 1008) /\
  (unknown (stack s) n -> parse (S r) [SUsing false (NPlain n)] s = Fail 1009).
Proof.
  intros r s n f t Es. rewrite parse_one. cbn [step var_name bind]. rewrite lookup_fresh. split.
  - intros x H N. apply sees_lookup in H as [i [v [E V]]]. rewrite E. cbn [shift]. rewrite V. destruct x; try reflexivity. exfalso. now apply (N m).
  - intros H. apply unknown_lookup in H. now rewrite H.
Qed.
Print Assumptions C54_using_errors.

(** Adding structs: every member of either is there, put together where both have it, and nothing else is. *)
Theorem C54_struct_sum : forall a b c, effect Plus (Some (VStruct a)) (VStruct b) (VStruct c) -> tidy (VStruct a) -> tidy (VStruct b) ->
  tidy (VStruct c) /\
  (forall n z, In (n, z) c <->
     (exists x y, In (n, x) a /\ In (n, y) b /\ joins x y z) \/ (In (n, z) a /\ ~ In n (map fst b)) \/ (In (n, z) b /\ ~ In n (map fst a))).
Proof.
  intros a b c E Ta Tb. inversion E as [| | | | | | | | | | | | | | | | | | | | | | | | | | | |? ? ? J]; subst.
  split; [exact (joins_tidy _ _ _ J Ta Tb)|]. inversion J as [| | | | | | | | | | | | |? ? d' JM]; subst.
  inversion Ta as [| | | |? Na _|]; subst. inversion Tb as [| | | |? Nb _|]; subst.
  assert (One : forall (l : list (str * value)) n x y, NoDup (map fst l) -> In (n, x) l -> In (n, y) l -> x = y).
  { clear. induction l as [|[k v] l IH]; intros n x y N H K; [contradiction|]. cbn in N. inversion N as [|? ? N1 N2]; subst.
    destruct H as [H|H], K as [K|K]; [congruence|injection H as -> ->|injection K as -> ->|].
    - exfalso. apply N1. apply in_map_iff. exists (n, y). auto.
    - exfalso. apply N1. apply in_map_iff. exists (n, x). auto.
    - eapply IH; eassumption. }
  assert (Mem : forall n y, member b n y -> In (n, y) b) by (intros n y [l [r [-> _]]]; apply in_app_iff; right; now left).
  assert (Nm : map fst d' = map fst a) by (clear -JM; induction JM; cbn; congruence).
  assert (D : forall n z, In (n, z) d' <-> (exists x y, In (n, x) a /\ In (n, y) b /\ joins x y z) \/ (In (n, z) a /\ ~ In n (map fst b))).
  { clear E J Ta Nm. induction JM as [s|s n0 x0 y0 z0 d d' Mm J JM IH|s n0 x0 d d' Nn JM IH]; intros n z; cbn [In].
    - split; [contradiction|intros [[x [y [[] _]]]|[[] _]]].
    - cbn in Na. inversion Na as [|? ? N1 N2]; subst. rewrite IH by assumption. apply Mem in Mm. split.
      + intros [H|[[x [y [H1 [H2 H3]]]]|[H1 H2]]].
        * injection H as <- <-. left. exists x0, y0. auto.
        * left. exists x, y. auto.
        * right. auto.
      + intros [[x [y [[H1|H1] [H2 H3]]]]|[[H1|H1] H2]].
        * injection H1 as <- <-. left. assert (y = y0) by (apply (One s n0); assumption). subst y.
          assert (z = z0); [|congruence]. apply concat_joins in H3. apply concat_joins in J. congruence.
        * right. left. exists x, y. auto.
        * injection H1 as <- <-. exfalso. apply H2. apply in_map_iff. exists (n0, y0). auto.
        * right. right. auto.
    - cbn in Na. inversion Na as [|? ? N1 N2]; subst. rewrite IH by assumption. split.
      + intros [H|[[x [y [H1 [H2 H3]]]]|[H1 H2]]].
        * injection H as <- <-. right. auto.
        * left. exists x, y. auto.
        * right. auto.
      + intros [[x [y [[H1|H1] [H2 H3]]]]|[[H1|H1] H2]].
        * injection H1 as <- <-. exfalso. apply Nn. apply in_map_iff. exists (n0, y). auto.
        * right. left. exists x, y. auto.
        * left. exact H1.
        * right. right. auto. }
  intros n z. rewrite in_app_iff, D.
  assert (A : In (n, z) (added (map fst a) b) <-> In (n, z) b /\ ~ In n (map fst a)).
  { clear -Nb. split; [apply added_in|]. revert a Nb. generalize (fun a : list (str * value) => map fst a). intros _ a. generalize (map fst a). clear a. intros seen Nb [H K]. revert seen K.
    induction b as [|[k v] b IH]; intros seen K; [contradiction|]. cbn in Nb. inversion Nb as [|? ? N1 N2]; subst. cbn [added].
    match goal with |- context [if ?b then _ else _] => destruct b eqn:Eb end.
    - destruct H as [H|H]; [|auto]. injection H as -> ->. exfalso. apply existsb_exists in Eb as [q [Q1 Q2]]. destruct (list_eq_dec ascii_dec q n); [subst; contradiction|discriminate].
    - destruct H as [H|H]; [now left|]. right. apply IH; auto. intros [->|Q]; [|contradiction]. apply N1. apply in_map_iff. exists (n, z). auto. }
  rewrite A. tauto.
Qed.
Print Assumptions C54_struct_sum.

Lemma last_set : forall r nm n o rh s s' f t, proper (stack s) -> stack s = f :: t -> named (stack s) nm n ->
  parse (S r) [SSet false nm o rh] s = Good s' -> exists f' t', stack s' = f' :: t' /\ last f' = Some (n, None).
Proof.
  intros r nm n o rh s s' f t P Es Nm H. rewrite Es in Nm. assert (C := proper_counts _ P). rewrite Es in C.
  destruct rh as [raw|z|b|pa m|l|b].
  6: { rewrite parse_one in H. cbn [step] in H. rewrite Es in H. apply var_name_named in Nm. rewrite Nm in H. cbn [bind note declare] in H. destruct o; try discriminate.
    match type of H with (if ?c then _ else _) = _ => destruct c; [|discriminate] end. apply bind_good in H as [s1 [H1 H]].
    assert (Q := parse_ok false r ltac:(discriminate) true b (with_stack (fresh :: {| vars := vars f; last := Some (n, None) |} :: t) s)).
    change (with_stack (fresh :: stack (with_stack ({| vars := vars f; last := Some (n, None) |} :: t) s)) (with_stack ({| vars := vars f; last := Some (n, None) |} :: t) s))
      with (with_stack (fresh :: {| vars := vars f; last := Some (n, None) |} :: t) s) in H1. rewrite H1 in Q.
    destruct Q as [Q1 [Q2 _]]; [discriminate|discriminate|apply good_fresh; inversion C; constructor; assumption|].
    cbn [stack with_stack tl] in Q2. destruct (stack s1) as [|top rest] eqn:E1; [discriminate|]. cbn [tl] in Q2.
    inversion Q2 as [|? g ? rest' [_ Kl] K2]; subst. cbn [at_ nth_error] in H. cbn [last] in Kl.
    exists (put_frame n (VStruct (map (fun v => (vname v, val v)) (vars top))) g), rest'.
    destruct (local n g) as [[vn [] vf]|]; try discriminate; injection H as <-; (split; [reflexivity|exact Kl]). }
  all: rewrite (set_here r nm n _ _ s f t Es Nm) in H by discriminate; apply bind_good in H as [p [_ H]]; injection H as <-; cbn [stack with_stack];
    destruct (fst p); eexists; eexists; (split; [reflexivity|reflexivity]).
Qed.
(** + rhs or - rhs with no name goes on with the variable that was just assigned. *)
Theorem C54_continue : forall r nm n o rh s o2 rh2, proper (stack s) -> named (stack s) nm n ->
  parse (S r) [SSet false nm o rh; SMore o2 rh2] s = parse (S r) [SSet false nm o rh; SSet false (NPlain n) o2 rh2] s.
Proof.
  intros r nm n o rh s o2 rh2 P Nm. rewrite !(parse_cons r (SSet false nm o rh)).
  destruct (step (parse r) (parse (pred r)) (SSet false nm o rh) s) as [s1|e|u] eqn:E; [|reflexivity|reflexivity]. cbn [bind].
  destruct (stack s) as [|f t] eqn:Es; [destruct P|]. rewrite <- Es in P, Nm.
  destruct (last_set r nm n o rh s s1 f t P Es Nm) as [f' [t' [E1 E2]]]; [now rewrite parse_one|].
  rewrite !parse_one. cbn [step var_name bind]. rewrite E1. destruct f' as [vs la]. cbn [last] in E2. subst la. cbn [note vars]. f_equal. destruct s1. cbn in *. now subst.
Qed.
Print Assumptions C54_continue.
(** With nothing assigned before, it is an error. *)
Theorem C54_continue_nothing : forall r s o rh f t, stack s = f :: t -> last f = None -> parse (S r) [SMore o rh] s = Fail 1011.
Proof. intros r s o rh f t E H. rewrite parse_one. cbn [step]. rewrite E. destruct f as [vs la]. cbn in H. now subst. Qed.
Print Assumptions C54_continue_nothing.

(** A program that uses most of this. *)
Definition config : list stmt :=
  [ SSet false (NPlain (L "Name")) Assign (RText (L "lib"));
    SSet false (NPlain (L "N")) Assign (RInt 40); SMore Plus (RInt 2);
    SSet false (NPlain (L "Msg")) Assign (RText (L "$Name$-$N$^$"));
    SSet false (NPlain (L "Files")) Assign (RArray [EText (L "a.cpp"); EText (L "b.cpp")]); SMore Plus (RText (L "c.cpp")); SMore Minus (RText (L "b.cpp"));
    SSet false (NPlain (L "Base")) Assign (RStruct [SSet false (NPlain (L "Opts")) Assign (RText (L "-O")); SSet false (NPlain (L "Dbg")) Assign (RBool false)]);
    SSet false (NPlain (L "More")) Assign (RStruct [SSet false (NPlain (L "Opts")) Assign (RText (L "2")); SSet false (NPlain (L "Name")) Assign (RText (L "x"))]);
    SSet false (NPlain (L "Base")) Plus (RVar false (NPlain (L "More")));
    SBlock [L "Opts"; L "Name"; L "Files"; L "Nope"] [SUsing false (NPlain (L "Base")); SSet true (NPlain (L "N")) Minus (RInt 2)];
    SIf true (NText (L "D$Name$")) [SPrintText (L "$N$")] ].
Lemma config_runs : run (SSet false (NPlain (L "Dlib")) Assign (RBool false) :: config) =
  Good {| stack := [{| vars := [ {| vname := L "Dlib"; val := VBool false; frozen := 0 |};
                                 {| vname := L "Name"; val := VStr (L "lib"); frozen := 0 |};
                                 {| vname := L "N"; val := VInt 40; frozen := 0 |};
                                 {| vname := L "Msg"; val := VStr (L "lib-42$"); frozen := 0 |};
                                 {| vname := L "Files"; val := VStrs [L "a.cpp"; L "c.cpp"]; frozen := 0 |};
                                 {| vname := L "Base"; val := VStruct [(L "Opts", VStr (L "-O2")); (L "Dbg", VBool false); (L "Name", VStr (L "x"))]; frozen := 0 |};
                                 {| vname := L "More"; val := VStruct [(L "Opts", VStr (L "2")); (L "Name", VStr (L "x"))]; frozen := 0 |} ];
                      last := Some (L "Base", None) |}]; funs := [];
          out := [Read [Some (VStr (L "-O2")); Some (VStr (L "x")); Some (VStrs [L "a.cpp"; L "c.cpp"]); None]; PrintedText (L "40")] |}.
Proof. vm_compute. reflexivity. Qed.
Example C54_case : exists s, run (SSet false (NPlain (L "Dlib")) Assign (RBool false) :: config) = Good s /\
  sees (stack s) (L "Base") (VStruct [(L "Opts", VStr (L "-O2")); (L "Dbg", VBool false); (L "Name", VStr (L "x"))]) /\
  sees (stack s) (L "Msg") (VStr (L "lib-42$")) /\ proper (stack s) /\
  evaluates (stack s) (RText (L "$Name$!")) (VStr (L "lib!")) /\ effect Plus (Some (VStr (L "lib-42$"))) (VStr (L "lib!")) (VStr (L "lib-42$lib!")) /\
  evaluates (stack s) (RArray [EVar false (NPlain (L "Files")); EText (L "z")]) (VStrs [L "a.cpp"; L "c.cpp"; L "z"]).
Proof.
  eexists. split; [exact config_runs|]. cbn [stack].
  split; [apply sees_get; reflexivity|]. split; [apply sees_get; reflexivity|]. split; [|split; [|split]].
  - cbn. split; [|split].
    + intros v Hv. repeat destruct Hv as [<-|Hv]; try reflexivity. contradiction.
    + intros g v [].
    + discriminate.
  - constructor. apply subst_reads. reflexivity.
  - constructor.
  - apply (eval_texts _ _ [L "a.cpp"; L "c.cpp"; L "z"]). refine (gathers_var _ false (NPlain (L "Files")) (L "Files") (VStrs [L "a.cpp"; L "c.cpp"]) (map VStr [L "a.cpp"; L "c.cpp"]) [EText (L "z")] [VStr (L "z")] _ _ _ _).
    + constructor.
    + apply sees_get. reflexivity.
    + constructor.
    + constructor; [|constructor]. apply subst_reads. reflexivity.
Qed.

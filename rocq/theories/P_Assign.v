(** Proofs about assignments. *)
From Coq Require Import String List Arith NArith ZArith Bool Ascii Lia.
Import ListNotations.
Require Import Verif.M_Path Verif.M_Scope Verif.S_Scope Verif.P_Scope Verif.P_Scope2 Verif.T_Scope Verif.S_Assign.
Open Scope nat_scope.

(** * Text *)
Definition text_of (x : value) : res str :=
  match x with
  | VBool b => Good (if b then L "true"%string else L "false"%string)
  | VInt z => Good (show_int z)
  | VStr x => Good x
  | _ => Fail 1029
  end.
Lemma text_of_written : forall x w, text_of x = Good w <-> written x w.
Proof.
  intros x w. split.
  - destruct x as [s|[|]|z|l|m|l]; cbn; intros E; inversion E; constructor.
  - intros H. destruct H; reflexivity.
Qed.
Lemma naming_eq : forall st n c r, subst_from st (Naming n) (c :: r) =
  if Ascii.eqb c "$"%char then
    match n with [] => Fail 1028 | _ => match old_value (rev n) None st with
      | None => Fail 1009
      | Some v => bind (text_of v) (fun w => bind (subst_from st Plain r) (fun t => Good (w ++ t)))
      end end
  else subst_from st (Naming (c :: n)) r.
Proof.
  intros st n c r. cbn [subst_from]. destruct (Ascii.eqb c "$"); [|reflexivity]. destruct n as [|a n]; [reflexivity|].
  unfold old_value. destruct (get_var (rev (a :: n)) None st) as [v|]; [|reflexivity]. destruct (val v); reflexivity.
Qed.
Lemma subst_reads1 : forall st s,
  (forall x, subst_from st Plain s = Good x -> reads st s x) /\
  (forall x, subst_from st Escaped s = Good x -> (s = [] /\ x = []) \/ exists c r t, s = c :: r /\ x = c :: t /\ reads st r t) /\
  (forall n x, subst_from st (Naming n) s = Good x -> exists m v w r t, s = m ++ "$"%char :: r /\ ~ In "$"%char m /\ rev n ++ m <> [] /\
     sees st (rev n ++ m) v /\ written v w /\ x = w ++ t /\ reads st r t).
Proof.
  intros st s. induction s as [|c r IH].
  - cbn. split; [|split].
    + intros x E. injection E as <-. constructor.
    + intros x E. injection E as <-. now left.
    + discriminate.
  - destruct IH as [I1 [I2 I3]]. split; [|split].
    + intros x E. cbn [subst_from] in E. destruct (Ascii.eqb_spec c "^"%char) as [->|Nc].
      * apply I2 in E as [[-> ->]|[c [r' [t [-> [-> R]]]]]]; [constructor|]. now constructor.
      * destruct (Ascii.eqb_spec c "$"%char) as [->|Nd].
        -- apply I3 in E as [m [v [w [r' [t [-> [Nm [Ne [Sv [W [-> R]]]]]]]]]]]. cbn [rev app] in *. econstructor; eassumption.
        -- apply bind_good in E as [t [E1 E]]. injection E as <-. constructor; auto.
    + intros x E. cbn [subst_from] in E. apply bind_good in E as [t [E1 E]]. injection E as <-. right. eauto 9.
    + intros n x E. rewrite naming_eq in E. destruct (Ascii.eqb_spec c "$"%char) as [->|Nd].
      * destruct n as [|a n]; [discriminate|]. destruct (old_value (rev (a :: n)) None st) as [v|] eqn:O; [|discriminate].
        apply bind_good in E as [w [E1 E]]. apply bind_good in E as [t [E2 E]]. injection E as <-.
        exists [], v, w, r, t. rewrite app_nil_r. repeat split; auto.
        -- cbn. intros K. now apply app_eq_nil in K as [_ K].
        -- now apply sees_get.
        -- now apply text_of_written.
      * apply I3 in E as [m [v [w [r' [t [-> [Nm [Ne [Sv [W [-> R]]]]]]]]]]]. cbn [rev] in *. rewrite <- app_assoc in *. cbn [app] in *.
        exists (c :: m), v, w, r', t. repeat split; auto. cbn. intros [K|K]; [congruence|contradiction].
Qed.
Lemma naming_skip : forall st m n r, ~ In "$"%char m -> subst_from st (Naming n) (m ++ "$"%char :: r) = subst_from st (Naming (rev m ++ n)) ("$"%char :: r).
Proof.
  intros st m. induction m as [|c m IH]; intros n r H; [reflexivity|]. cbn [app]. rewrite naming_eq.
  destruct (Ascii.eqb_spec c "$"%char) as [->|Nd]; [exfalso; apply H; now left|]. rewrite IH by (intros K; apply H; now right). cbn [rev]. now rewrite <- app_assoc.
Qed.
Lemma subst_reads : forall st s x, subst st s = Good x <-> reads st s x.
Proof.
  intros st s x. split; [apply subst_reads1|]. unfold subst. induction 1 as [|c r t N1 N2 R IH|c r t R IH| |n x w r t Ne Nn Sx W R IH]; cbn [subst_from]; auto.
  - destruct (Ascii.eqb_spec c "^"%char); [congruence|]. destruct (Ascii.eqb_spec c "$"%char); [congruence|]. now rewrite IH.
  - cbn. now rewrite IH.
  - cbn [Ascii.eqb]. change (Ascii.eqb "$" "^") with false. change (Ascii.eqb "$" "$") with true. cbn iota.
    rewrite naming_skip by assumption. rewrite naming_eq, app_nil_r. change (Ascii.eqb "$" "$") with true. cbn iota. rewrite rev_involutive.
    destruct (rev n) as [|a b] eqn:E; [exfalso; apply Ne; rewrite <- (rev_involutive n), E; reflexivity|].
    apply sees_get in Sx. rewrite Sx. apply text_of_written in W. rewrite W. cbn [bind]. now rewrite IH.
Qed.
Lemma var_name_named : forall st n m, var_name st n = Good m <-> named st n m.
Proof.
  intros st [n|raw] m; cbn [var_name]; split; intros H.
  - injection H as <-. constructor.
  - inversion H. reflexivity.
  - constructor. now apply subst_reads.
  - inversion H. now apply subst_reads.
Qed.
Lemma reads_view : forall a b s x, view a b -> reads a s x -> reads b s x.
Proof. intros a b s x V H. apply subst_reads. apply subst_reads in H. rewrite <- H. symmetry. now apply view_subst. Qed.

(** * Struct addition *)
Definition value_rect2 := fun (P : value -> Prop) (Hs : forall s, P (VStr s)) (Hb : forall b, P (VBool b)) (Hi : forall z, P (VInt z)) (Ha : forall l, P (VStrs l))
  (Hm : forall m, Forall (fun p => P (snd p)) m -> P (VStruct m)) (Hl : forall l, P (VStructs l)) =>
  fix go (x : value) : P x :=
    match x with
    | VStr s => Hs s | VBool b => Hb b | VInt z => Hi z | VStrs l => Ha l
    | VStruct m => Hm m ((fix all (m : list (str * value)) : Forall (fun p => P (snd p)) m :=
        match m with [] => Forall_nil _ | p :: r => Forall_cons p (go (snd p)) (all r) end) m)
    | VStructs l => Hl l
    end.
Fixpoint members (s d : list (str * value)) : res (list (str * value)) :=
  match d with
  | [] => Good []
  | (n, x) :: r => bind (match assoc n s with Some y => concat_vars x y | None => Good x end) (fun z => bind (members s r) (fun t => Good ((n, z) :: t)))
  end.
Lemma concat_struct : forall d s, concat_vars (VStruct d) (VStruct s) =
  bind (members s d) (fun all => Good (VStruct (fold_left (fun acc m => match assoc (fst m) acc with Some _ => acc | None => acc ++ [m] end) s all))).
Proof.
  intros d s. cbn [concat_vars]. f_equal. induction d as [|[n x] d IH]; [reflexivity|]. cbn [members]. rewrite IH. reflexivity.
Qed.
Lemma assoc_member : forall (s : list (str * value)) n x, assoc n s = Some x <-> member s n x.
Proof.
  induction s as [|[k y] s IH]; intros n x; cbn [assoc].
  - split; [discriminate|]. intros [l [r [E _]]]. now destruct l.
  - destruct (same n k) eqn:E.
    + apply same_iff in E. subst k. split.
      * intros K. injection K as ->. exists [], s. split; [reflexivity|intros []].
      * intros [[|p l] [r [E N]]]; [now injection E as ->|]. injection E as <- E. exfalso. apply N. now left.
    + apply same_no in E. rewrite IH. split; intros [l [r [Es N]]].
      * exists ((k, y) :: l), r. subst s. split; [reflexivity|]. intros [K|K]; [cbn in K; congruence|contradiction].
      * destruct l as [|p l]; [injection Es as E1 E2 E3; congruence|]. injection Es as <- Es. exists l, r. split; [exact Es|]. intros K. apply N. now right.
Qed.
Lemma assoc_absent : forall (s : list (str * value)) n, assoc n s = None <-> ~ In n (map fst s).
Proof.
  induction s as [|[k y] s IH]; intros n; cbn [assoc map In fst]; [tauto|]. destruct (same n k) eqn:E.
  - apply same_iff in E. subst. split; [discriminate|]. intros H. exfalso. apply H. now left.
  - apply same_no in E. rewrite IH. split; [intros H [K|K]; [congruence|contradiction]|tauto].
Qed.
Lemma fold_added : forall s acc seen, (forall n, In n (map fst acc) <-> In n seen) ->
  fold_left (fun (acc : list (str * value)) m => match assoc (fst m) acc with Some _ => acc | None => acc ++ [m] end) s acc = acc ++ added seen s.
Proof.
  induction s as [|[n x] s IH]; intros acc seen H; cbn [fold_left added fst]; [now rewrite app_nil_r|].
  assert (X : existsb (fun k => if list_eq_dec ascii_dec k n then true else false) seen = match assoc n acc with Some _ => true | None => false end).
  { destruct (assoc n acc) eqn:E.
    - apply existsb_exists. exists n. split; [|now destruct (list_eq_dec ascii_dec n n)]. apply H.
      destruct (in_dec (list_eq_dec ascii_dec) n (map fst acc)) as [I|I]; [exact I|]. apply assoc_absent in I. congruence.
    - apply assoc_absent in E. match goal with |- ?b = false => destruct b eqn:F end; [|reflexivity]. apply existsb_exists in F as [k [I K]].
      destruct (list_eq_dec ascii_dec k n) as [->|]; [|discriminate]. apply H in I. contradiction. }
  rewrite X. destruct (assoc n acc).
  - now apply IH.
  - rewrite (IH _ (n :: seen)); [now rewrite <- app_assoc|]. intros k. rewrite map_app, in_app_iff. cbn. rewrite H. tauto.
Qed.
Lemma members_names : forall s d d', members s d = Good d' -> map fst d' = map fst d.
Proof.
  intros s. induction d as [|[n x] d IH]; intros d' H; cbn [members] in H; [now injection H as <-|].
  apply bind_good in H as [z [_ H]]. apply bind_good in H as [t [H1 H]]. injection H as <-. cbn. f_equal. auto.
Qed.
Lemma int32_fits : forall z r, int32 z = Good r <-> fits z /\ r = z.
Proof.
  intros z r. unfold int32, fits. destruct ((-2147483648 <=? z) && (z <=? 2147483647))%Z eqn:E.
  - apply andb_true_iff in E as [E1 E2]. apply Z.leb_le in E1, E2. split; [intros K; injection K as <-; auto|intros [_ ->]; reflexivity].
  - split; [discriminate|]. intros [[A B] _]. apply Z.leb_le in A, B. rewrite A, B in E. discriminate.
Qed.
Lemma joins_struct_good : forall m, Forall (fun p => forall y z, concat_vars (snd p) y = Good z <-> joins (snd p) y z) m ->
  forall s d', members s m = Good d' <-> joins_members s m d'.
Proof.
  intros m F s. induction F as [|[n x] d Hx F IH]; intros d'; cbn [members].
  - split; [intros K; injection K as <-; constructor|]. intros K. inversion K. reflexivity.
  - split.
    + intros H. apply bind_good in H as [z [H1 H]]. apply bind_good in H as [t [H2 H]]. injection H as <-. destruct (assoc n s) as [y|] eqn:E.
      * apply (joins_both s n x y z); [now apply assoc_member|now apply Hx|now apply IH].
      * injection H1 as <-. apply joins_only; [now apply assoc_absent|now apply IH].
    + intros H. inversion H as [|s' n' x' y z d0 d1 M J K E1 E2 E3|s' n' x' d0 d1 M K E1 E2 E3]; subst.
      * apply assoc_member in M. rewrite M. apply Hx in J. cbn [snd] in J. rewrite J. cbn [bind]. apply IH in K. rewrite K. reflexivity.
      * apply assoc_absent in M. rewrite M. cbn [bind]. apply IH in K. rewrite K. reflexivity.
Qed.
Ltac join := first [ now constructor | constructor; discriminate
  | apply (joins_one_text [] _) | apply (joins_one_struct [] _) | apply (joins_texts [] _) | apply (joins_structs [] _)
  | apply (joins_texts _ []) | apply (joins_structs _ [])
  | match goal with |- joins (VStrs (?h :: ?t)) (VStr ?b) _ => exact (joins_one_text (h :: t) b) | |- joins (VStructs (?h :: ?t)) (VStruct ?b) _ => exact (joins_one_struct (h :: t) b)
      | |- joins (VStrs (?h :: ?t)) (VStrs ?b) _ => exact (joins_texts (h :: t) b) | |- joins (VStructs (?h :: ?t)) (VStructs ?b) _ => exact (joins_structs (h :: t) b) end ].
Lemma concat_joins : forall x y z, concat_vars x y = Good z <-> joins x y z.
Proof.
  intros x. induction x as [a|a|a|a|m IH|a] using value_rect2; intros y z.
  - split; [destruct y; cbn; intros E; try discriminate; injection E as <-; constructor|]. intros H. inversion H; reflexivity.
  - split; [destruct y; cbn; intros E; try discriminate; injection E as <-; rewrite orb_comm; constructor|]. intros H. inversion H; cbn. now rewrite orb_comm.
  - split.
    + destruct y; cbn; intros E; try discriminate. apply bind_good in E as [r [E1 E]]. injection E as <-. apply int32_fits in E1 as [E1 ->]. rewrite Z.add_comm. rewrite Z.add_comm in E1. now constructor.
    + intros H. inversion H as [|a' b F| | | | | | | | | | | |]; subst. cbn. rewrite Z.add_comm. assert (X := proj2 (int32_fits (a + b) (a + b)) (conj F eq_refl)). rewrite X. reflexivity.
  - split.
    + destruct y as [b|b|b|b|b|b]; try destruct b as [|u b]; destruct a as [|v a]; cbn [concat_vars]; intros E; try discriminate; injection E as <-; join.
    + intros H. inversion H; subst; try (destruct a; reflexivity); try reflexivity; destruct b; (congruence || reflexivity).
  - destruct y as [b|b|b|b|b|b]; try (split; [discriminate|intros H; inversion H]). rewrite concat_struct. split.
    + intros E. apply bind_good in E as [d' [E1 E]]. injection E as <-. rewrite (fold_added b d' (map fst m)); [|rewrite (members_names _ _ _ E1); tauto].
      constructor. now apply (joins_struct_good m IH).
    + intros H. inversion H as [| | | | | | | | | | | | |d s d' J]; subst. apply (joins_struct_good m IH) in J. rewrite J. cbn [bind].
      rewrite (fold_added b d' (map fst m)); [reflexivity|]. rewrite (members_names _ _ _ J). tauto.
  - split.
    + destruct y as [b|b|b|b|b|b]; try destruct b as [|u b]; destruct a as [|v a]; cbn [concat_vars]; intros E; try discriminate; injection E as <-; join.
    + intros H. inversion H; subst; try (destruct a; reflexivity); try reflexivity; destruct b; (congruence || reflexivity).
Qed.

(** * Array literals *)
Definition kind_after (k : option bool) (b : bool) {A} (l : list A) : option bool := match l with [] => k | _ => Some b end.
Lemma source_sees : forall st (parent : bool) n x, source st parent n = Some x <-> sees (if parent then tl st else st) n x.
Proof.
  intros st parent n x. unfold source. rewrite sees_lookup. destruct (lookup n (if parent then tl st else st)) as [[i v]|]; split.
  - intros E. injection E as <-. eauto.
  - intros [j [w [E V]]]. injection E as -> ->. now subst.
  - discriminate.
  - intros [j [w [E V]]]. discriminate.
Qed.
Lemma elements_texts : forall st o l xs k a b, o <> Minus -> gathers st l (map VStr xs) -> xs = [] \/ compatible k true = true ->
  elements st o l k a b = Good (kind_after k true xs, a ++ xs, b).
Proof.
  intros st o l xs k a b No G. remember (map VStr xs) as ps eqn:Ep. revert xs Ep k a b. induction G as [|raw x r l' R G IH|pa n m v ps r l' Nm Sv Pv G IH]; intros xs Ep k a b C.
  - destruct xs; [|discriminate]. cbn. now rewrite app_nil_r.
  - destruct xs as [|x' xs]; [discriminate|]. injection Ep as <- Ep. destruct C as [C|C]; [discriminate|]. cbn [elements]. rewrite C. cbn [negb].
    apply subst_reads in R. rewrite R. cbn [bind]. assert (X := IH xs Ep (Some true) (a ++ [x]) b (or_intror eq_refl)). rewrite <- app_assoc in X. cbn [app] in X.
    destruct o; [| |congruence]; rewrite X; destruct xs; reflexivity.
  - cbn [elements]. apply var_name_named in Nm. rewrite Nm. cbn [bind]. apply source_sees in Sv. rewrite Sv.
    assert (Sp : exists xs1 xs2, xs = xs1 ++ xs2 /\ ps = map VStr xs1 /\ l' = map VStr xs2).
    { clear -Ep. revert xs Ep. induction ps as [|p ps IH]; intros xs Ep; [exists [], xs; auto|]. destruct xs as [|x xs]; [discriminate|]. injection Ep as -> Ep.
      destruct (IH xs Ep) as [x1 [x2 [-> [-> ->]]]]. exists (x :: x1), x2. auto. }
    destruct Sp as [x1 [x2 [-> [Ep1 Ep2]]]]. clear Ep.
    assert (C2 : forall k', k' = k \/ k' = Some true -> x2 = [] \/ compatible k' true = true) by (intros k' [->| ->]; [destruct C as [C|C]; [apply app_eq_nil in C as [_ ->]; now left|now right]|now right]).
    assert (Fin : elements st o r (kind_after k true x1) (a ++ x1) b = Good (kind_after k true (x1 ++ x2), a ++ x1 ++ x2, b)).
    { rewrite (IH x2 Ep2); [|apply C2; destruct x1; auto]. rewrite <- app_assoc. destruct x1, x2; reflexivity. }
    destruct o; [| |congruence]; (inversion Pv as [s E1 E2|m0 E1 E2|l0 E1 E2|l0 E1 E2]; subst;
      [ destruct x1 as [|? [|? ?]]; try discriminate; injection E2 as ->; cbn [is_empty_array]; destruct C as [C|C]; [discriminate|]; rewrite C; exact Fin
      | destruct x1; discriminate
      | assert (l0 = x1) by (clear -E2; revert x1 E2; induction l0 as [|q l0 IHl]; intros [|y x1] E; try discriminate; [reflexivity|]; injection E as -> E; f_equal; auto); subst l0;
        destruct x1 as [|y x1]; cbn [is_empty_array]; [rewrite app_nil_r in Fin; exact Fin|]; destruct C as [C|C]; [discriminate|]; rewrite C; exact Fin
      | assert (l0 = [] /\ x1 = []) as [-> ->] by (destruct l0, x1; try discriminate; auto); cbn [is_empty_array]; rewrite app_nil_r in Fin; exact Fin ]).
Qed.
Lemma elements_structs : forall st o l xs k a b, o <> Minus -> gathers st l (map VStruct xs) -> xs = [] \/ compatible k false = true ->
  elements st o l k a b = Good (kind_after k false xs, a, b ++ xs).
Proof.
  intros st o l xs k a b No G. remember (map VStruct xs) as ps eqn:Ep. revert xs Ep k a b. induction G as [|raw x r l' R G IH|pa n m v ps r l' Nm Sv Pv G IH]; intros xs Ep k a b C.
  - destruct xs; [|discriminate]. cbn. now rewrite app_nil_r.
  - destruct xs; discriminate.
  - cbn [elements]. apply var_name_named in Nm. rewrite Nm. cbn [bind]. apply source_sees in Sv. rewrite Sv.
    assert (Sp : exists xs1 xs2, xs = xs1 ++ xs2 /\ ps = map VStruct xs1 /\ l' = map VStruct xs2).
    { clear -Ep. revert xs Ep. induction ps as [|p ps IH]; intros xs Ep; [exists [], xs; auto|]. destruct xs as [|x xs]; [discriminate|]. injection Ep as -> Ep.
      destruct (IH xs Ep) as [x1 [x2 [-> [-> ->]]]]. exists (x :: x1), x2. auto. }
    destruct Sp as [x1 [x2 [-> [Ep1 Ep2]]]]. clear Ep.
    assert (C2 : forall k', k' = k \/ k' = Some false -> x2 = [] \/ compatible k' false = true) by (intros k' [->| ->]; [destruct C as [C|C]; [apply app_eq_nil in C as [_ ->]; now left|now right]|now right]).
    assert (Fin : elements st o r (kind_after k false x1) a (b ++ x1) = Good (kind_after k false (x1 ++ x2), a, b ++ x1 ++ x2)).
    { rewrite (IH x2 Ep2); [|apply C2; destruct x1; auto]. rewrite <- app_assoc. destruct x1, x2; reflexivity. }
    destruct o; [| |congruence]; (inversion Pv as [s E1 E2|m0 E1 E2|l0 E1 E2|l0 E1 E2]; subst;
      [ destruct x1; discriminate
      | destruct x1 as [|? [|? ?]]; try discriminate; injection E2 as ->; cbn [is_empty_array]; destruct C as [C|C]; [discriminate|]; rewrite C; exact Fin
      | assert (l0 = [] /\ x1 = []) as [-> ->] by (destruct l0, x1; try discriminate; auto); cbn [is_empty_array]; rewrite app_nil_r in Fin; exact Fin
      | assert (l0 = x1) by (clear -E2; revert x1 E2; induction l0 as [|q l0 IHl]; intros [|y x1] E; try discriminate; [reflexivity|]; injection E as -> E; f_equal; auto); subst l0;
        destruct x1 as [|y x1]; cbn [is_empty_array]; [rewrite app_nil_r in Fin; exact Fin|]; destruct C as [C|C]; [discriminate|]; rewrite C; exact Fin ]).
Qed.
Lemma elements_gathers : forall st o l k a b r, o <> Minus -> elements st o l k a b = Good r ->
  (exists xs, gathers st l (map VStr xs) /\ (xs = [] \/ compatible k true = true)) \/
  (exists ms, gathers st l (map VStruct ms) /\ ms <> [] /\ compatible k false = true).
Proof.
  intros st o l. induction l as [|e l IH]; intros k a b r No H.
  - left. exists []. split; [constructor|now left].
  - destruct e as [raw|pa n]; cbn [elements] in H.
    + destruct (compatible k true) eqn:C; [|discriminate]. cbn [negb] in H.
      assert (X : exists x, reads st raw x /\ elements st o l (Some true) (a ++ [x]) b = Good r).
      { destruct o; [| |congruence]; apply bind_good in H as [x [H1 H]]; apply subst_reads in H1; eauto. }
      destruct X as [x [R H1]]. apply IH in H1 as [[xs [G _]]|[ms [G [N C']]]]; [|destruct ms; discriminate|exact No].
      left. exists (x :: xs). split; [now constructor|now right].
    + apply bind_good in H as [m [Hm H]]. apply var_name_named in Hm. destruct (source st pa m) as [v|] eqn:Sv; [|discriminate]. apply source_sees in Sv.
      destruct (is_empty_array v) eqn:Em.
      * assert (H1 : elements st o l k a b = Good r) by (destruct o; [exact H|exact H|congruence]).
        assert (Pv : pieces v []) by (destruct v as [s|c|z|[|s q]|q|[|s q]]; try discriminate; [exact (pieces_texts [])|exact (pieces_structs [])]).
        apply IH in H1 as [[xs [G C]]|[ms [G [N C]]]]; [| |exact No]; [left; exists xs|right; exists ms]; (split; [exact (gathers_var st pa n m v [] l _ Hm Sv Pv G)|auto]).
      * assert (H1 : match v with
                   | VStr x => if compatible k true then elements st o l (Some true) (a ++ [x]) b else Fail 1034
                   | VStrs q => if compatible k true then elements st o l (Some true) (a ++ q) b else Fail 1034
                   | VStruct m => if compatible k false then elements st o l (Some false) a (b ++ [m]) else Fail 1034
                   | VStructs q => if compatible k false then elements st o l (Some false) a (b ++ q) else Fail 1034
                   | _ => Fail 1050
                   end = Good r) by (destruct o; [exact H|exact H|congruence]).
        destruct v as [s|c|z|q|q|q]; try discriminate.
        -- destruct (compatible k true) eqn:C; [|discriminate]. apply IH in H1 as [[xs [G _]]|[ms [G [N C']]]]; [|destruct ms; discriminate|exact No].
           left. exists (s :: xs). split; [|now right]. exact (gathers_var st pa n m _ [VStr s] l _ Hm Sv (pieces_text s) G).
        -- destruct (compatible k true) eqn:C; [|discriminate]. apply IH in H1 as [[xs [G _]]|[ms [G [N C']]]]; [|destruct ms; discriminate|exact No].
           left. exists (q ++ xs). split; [|now right]. rewrite map_app. exact (gathers_var st pa n m _ _ l _ Hm Sv (pieces_texts q) G).
        -- destruct (compatible k false) eqn:C; [|discriminate]. apply IH in H1 as [[xs [G C']]|[ms [G [N C']]]]; [| |exact No].
           ++ destruct C' as [->|C']; [|discriminate]. right. exists [q]. split; [|split; [discriminate|reflexivity]]. exact (gathers_var st pa n m _ [VStruct q] l _ Hm Sv (pieces_struct q) G).
           ++ right. exists (q :: ms). split; [|split; [discriminate|reflexivity]]. exact (gathers_var st pa n m _ [VStruct q] l _ Hm Sv (pieces_struct q) G).
        -- destruct (compatible k false) eqn:C; [|discriminate]. apply IH in H1 as [[xs [G C']]|[ms [G [N C']]]]; [| |exact No].
           ++ destruct C' as [->|C']; [|discriminate]. right. exists q. split; [|split; [|reflexivity]].
              ** assert (X := gathers_var st pa n m _ _ l _ Hm Sv (pieces_structs q) G). now rewrite app_nil_r in X.
              ** intros ->. discriminate.
           ++ right. exists (q ++ ms). split; [|split; [|reflexivity]].
              ** rewrite map_app. exact (gathers_var st pa n m _ _ l _ Hm Sv (pieces_structs q) G).
              ** intros K. apply app_eq_nil in K as [-> _]. discriminate.
Qed.
Lemma elements_minus : forall st e l k a b r, elements st Minus (e :: l) k a b <> Good r.
Proof.
  intros st [raw|pa n] l k a b r; cbn [elements].
  - destruct (compatible k true); discriminate.
  - destruct (var_name st n) as [m|c|u]; [|discriminate|discriminate]. cbn [bind]. destruct (source st pa m); discriminate.
Qed.

(** * The operators *)
Lemma remove_without : forall b a c, b <> [] -> (remove_all b a = c <-> without b a c).
Proof.
  intros b a c N. unfold remove_all. destruct b as [|d b]; [congruence|]. split.
  - intros <-. now apply cut_spec.
  - intros H. eapply without_one; [exact N|now apply cut_spec|exact H].
Qed.
Lemma filter_other : forall (b : str) l, filter (fun y => negb (same y b)) l = filter (fun y => if list_eq_dec ascii_dec y b then false else true) l.
Proof. intros b l. apply filter_ext. intros y. unfold same. destruct (list_eq_dec ascii_dec y b); reflexivity. Qed.
Lemma store_var_ok : forall o old x new, effect o old x new -> exists sw, store_var o old x = Good (sw, new).
Proof.
  intros o old x new H.
  destruct H; cbn [store_var structs_of strs_of is_empty_array]; try (eexists; reflexivity);
    try (match goal with o : op |- _ => destruct o; [| |congruence] end; destruct b; try congruence; eexists; reflexivity);
    try (match goal with o : op |- _ => destruct o; [| |congruence] end; eexists; reflexivity);
    try (match goal with a : list _ |- _ => destruct a; eexists; reflexivity end).
  - apply remove_without in H0; [|exact H]. rewrite H0. eauto.
  - assert (X := proj2 (int32_fits (a + b) (a + b)) (conj H eq_refl)). rewrite X. cbn. eauto.
  - assert (X := proj2 (int32_fits (a - b) (a - b)) (conj H eq_refl)). rewrite X. cbn. eauto.
  - rewrite filter_other. exists false. destruct a; reflexivity.
  - apply concat_joins in H. rewrite H. cbn. eauto.
Qed.
Ltac eff := cbn [snd]; first
  [ match goal with |- effect Minus (Some (VStrs ?l)) (VStr ?b) _ => exact (eq_ind _ (fun q => effect Minus (Some (VStrs l)) (VStr b) (VStrs q)) (less_text l b) _ (eq_sym (filter_other b l))) end
  | exact (new_var _) | exact (set_text _ _) | exact (add_text _ _) | exact (set_bool _ _) | exact (set_int _ _)
  | exact (set_texts _ _) | exact (add_texts _ _) | exact (set_structs _ _) | exact (add_structs _ _) | exact (only_text _ _) | exact (more_text _ _) | exact (less_text _ _)
  | exact (only_struct _ _) | exact (more_struct _ _) | (apply empty_text; discriminate) | exact (empty_no_text _) | (apply empty_struct; discriminate)
  | (apply empty_texts; discriminate) | (apply empty_structs; discriminate)
  | exact (texts_none _) | exact (texts_clear _) | exact (structs_none _) | exact (structs_clear _) | exact (set_struct _ _) ].
Lemma store_var_only : forall o old x p, store_var o old x = Good p -> effect o old x (snd p).
Proof.
  intros o [d|] x p H.
  - destruct d as [a|a|a|a|a|a].
    + destruct x as [b|b|b|b|b|b]; destruct o; try discriminate; cbn [store_var] in H; injection H as <-; [eff|eff|]; cbn [snd].
      destruct b as [|c b]; [apply drop_nothing|]. apply drop_text; [discriminate|]. now apply remove_without.
    + destruct x as [b|b|b|b|b|b]; destruct o; try discriminate; cbn [store_var] in H; injection H as <-; eff.
    + destruct x as [b|b|b|b|b|b]; destruct o; try discriminate; cbn [store_var] in H; [injection H as <-; eff| |];
        apply bind_good in H as [z [H1 H]]; injection H as <-; apply int32_fits in H1 as [F ->]; now constructor.
    + destruct x as [b|b|b|b|b|b]; destruct a as [|u a]; try (destruct b as [|w b]); destruct o; try discriminate; cbn [store_var strs_of structs_of] in H; try discriminate; injection H as <-; eff.
    + destruct x as [b|b|b|b|b|b]; destruct o; try discriminate; cbn [store_var] in H; [injection H as <-; eff|].
      apply bind_good in H as [z [H1 H]]. injection H as <-. constructor. now apply concat_joins.
    + destruct x as [b|b|b|b|b|b]; destruct a as [|u a]; try (destruct b as [|w b]); destruct o; try discriminate; cbn [store_var strs_of structs_of] in H; try discriminate; injection H as <-; eff.
  - destruct o; try discriminate. cbn in H. injection H as <-. eff.
Qed.

(** All right hand sides that are not struct literals. *)
Definition store_any (st : list frame) (o : op) (old : option value) (rh : rhs) : res (bool * value) :=
  match rh with
  | RText raw => bind (subst st raw) (fun x => bind (store_text o old x) (fun v => Good (false, v)))
  | RInt z => bind (store_int o old z) (fun v => Good (false, v))
  | RBool b => bind (store_bool o old b) (fun v => Good (false, v))
  | RArray l => bind (store_array st o old l) (fun v => Good (false, v))
  | RVar parent src => bind (var_name st src) (fun src =>
      match source st parent src with None => Fail 1009 | Some x => store_var o old x end)
  | RStruct _ => Fail 0
  end.
Lemma text_var : forall o old x v, store_text o old x = Good v <-> store_var o old (VStr x) = Good (false, v).
Proof.
  intros o old x v. destruct old as [[a|a|a|[|u a]|a|[|u a]]|]; destruct o; cbn; split; intros H; try discriminate; injection H as <-; reflexivity.
Qed.
Lemma int_var : forall o old x v, store_int o old x = Good v <-> store_var o old (VInt x) = Good (false, v).
Proof.
  intros o old x v. destruct old as [[a|a|a|[|u a]|a|[|u a]]|]; destruct o; cbn; split; intros H; try discriminate; try (injection H as <-; reflexivity);
    apply bind_good in H as [z [H1 H]]; rewrite H1; injection H as <-; reflexivity.
Qed.
Lemma bool_var : forall o old x v, store_bool o old x = Good v <-> store_var o old (VBool x) = Good (false, v).
Proof.
  intros o old x v. destruct old as [[a|a|a|[|u a]|a|[|u a]]|]; destruct o; cbn; split; intros H; try discriminate; injection H as <-; reflexivity.
Qed.
Lemma sw_false : forall o old x p, (forall m, x <> VStruct m) -> store_var o old x = Good p -> fst p = false.
Proof.
  intros o old x p N H. destruct x as [b|b|b|b|b|b]; [| | | |exfalso; now apply (N b)|].
  all: destruct old as [[a|a|a|[|u a]|a|[|u a]]|]; try (destruct b as [|w b]); destruct o; cbn in H; try discriminate; try (injection H as <-; reflexivity);
    apply bind_good in H as [z [_ H]]; injection H as <-; reflexivity.
Qed.
Lemma array_texts : forall st o old l xs v, (o = Minus -> l <> []) -> gathers st l (map VStr xs) ->
  (store_array st o old l = Good v <-> store_var o old (VStrs xs) = Good (false, v)).
Proof.
  intros st o old l xs v No G. destruct o.
  - unfold store_array. destruct old as [[a|a|a|[|u a]|a|[|u a]]|]; try (split; discriminate); cbn [bind fst snd].
    all: try (rewrite (elements_texts st Assign l xs _ [] [] ltac:(discriminate) G); [|now right]; destruct xs; cbn; split; intros H; injection H as <-; reflexivity).
    destruct xs as [|x xs].
    + rewrite (elements_texts st Assign l [] _ [] [] ltac:(discriminate) G); [|now left]. cbn. split; intros H; injection H as <-; reflexivity.
    + split; [|discriminate]. intros H. apply bind_good in H as [r [H1 H]]. apply elements_gathers in H1; [|discriminate].
      exfalso. destruct H1 as [[ys [G2 [->|C]]]|[ms [G2 [N C]]]]; [|discriminate|].
      * assert (X := elements_texts st Assign l (x :: xs) None [] [] ltac:(discriminate) G (or_intror eq_refl)).
        assert (Y := elements_texts st Assign l [] None [] [] ltac:(discriminate) G2 (or_introl eq_refl)). rewrite X in Y. discriminate.
      * assert (X := elements_texts st Assign l (x :: xs) None [] [] ltac:(discriminate) G (or_intror eq_refl)).
        assert (Y := elements_structs st Assign l ms None [] [] ltac:(discriminate) G2 (or_intror eq_refl)). rewrite X in Y. destruct ms; [congruence|discriminate].
  - unfold store_array. destruct old as [[a|a|a|[|u a]|a|[|u a]]|]; try (split; discriminate); cbn [bind fst snd].
    all: try (rewrite (elements_texts st Plus l xs _ _ [] ltac:(discriminate) G); [|now right]; destruct xs; cbn; rewrite ?app_nil_r; split; intros H; injection H as <-; reflexivity).
    destruct xs as [|x xs].
    + rewrite (elements_texts st Plus l [] _ [] (u :: a) ltac:(discriminate) G); [|now left]. cbn. split; intros H; injection H as <-; reflexivity.
    + split; [|discriminate]. intros H. apply bind_good in H as [r [H1 H]]. apply elements_gathers in H1; [|discriminate].
      exfalso. destruct H1 as [[ys [G2 [->|C]]]|[ms [G2 [N C]]]]; [|discriminate|].
      * assert (X := elements_texts st Assign l (x :: xs) None [] [] ltac:(discriminate) G (or_intror eq_refl)).
        assert (Y := elements_texts st Assign l [] None [] [] ltac:(discriminate) G2 (or_introl eq_refl)). rewrite X in Y. discriminate.
      * assert (X := elements_texts st Assign l (x :: xs) None [] [] ltac:(discriminate) G (or_intror eq_refl)).
        assert (Y := elements_structs st Assign l ms None [] [] ltac:(discriminate) G2 (or_intror eq_refl)). rewrite X in Y. destruct ms; [congruence|discriminate].
  - split.
    + intros H. exfalso. unfold store_array in H. apply bind_good in H as [start [_ H]]. apply bind_good in H as [r [H _]].
      destruct l as [|e l]; [now apply No|]. now apply elements_minus in H.
    + intros H. exfalso. destruct old as [[a|a|a|[|u a]|a|[|u a]]|]; destruct xs; discriminate.
Qed.
Lemma array_structs : forall st o old l xs v, (o = Minus -> l <> []) -> xs <> [] -> gathers st l (map VStruct xs) ->
  (store_array st o old l = Good v <-> store_var o old (VStructs xs) = Good (false, v)).
Proof.
  intros st o old l xs v No Nx G. destruct xs as [|x xs]; [congruence|]. destruct o.
  - unfold store_array. destruct old as [[a|a|a|[|u a]|a|[|u a]]|]; try (split; discriminate); cbn [bind fst snd].
    all: try (rewrite (elements_structs st Assign l (x :: xs) _ [] [] ltac:(discriminate) G); [|now right]; cbn; split; intros H; injection H as <-; reflexivity).
    split; [|discriminate]. intros H. apply bind_good in H as [r [H1 H]]. apply elements_gathers in H1; [|discriminate].
    exfalso. destruct H1 as [[ys [G2 C]]|[ms [G2 [N C]]]]; [|discriminate].
    assert (X := elements_structs st Assign l (x :: xs) None [] [] ltac:(discriminate) G (or_intror eq_refl)).
    assert (Y := elements_texts st Assign l ys None [] [] ltac:(discriminate) G2 (or_intror eq_refl)). rewrite X in Y. destruct ys; discriminate.
  - unfold store_array. destruct old as [[a|a|a|[|u a]|a|[|u a]]|]; try (split; discriminate); cbn [bind fst snd].
    all: try (rewrite (elements_structs st Plus l (x :: xs) _ [] _ ltac:(discriminate) G); [|now right]; cbn; rewrite ?app_nil_r; split; intros H; injection H as <-; reflexivity).
    split; [|discriminate]. intros H. apply bind_good in H as [r [H1 H]]. apply elements_gathers in H1; [|discriminate].
    exfalso. destruct H1 as [[ys [G2 C]]|[ms [G2 [N C]]]]; [|discriminate].
    assert (X := elements_structs st Assign l (x :: xs) None [] [] ltac:(discriminate) G (or_intror eq_refl)).
    assert (Y := elements_texts st Assign l ys None [] [] ltac:(discriminate) G2 (or_intror eq_refl)). rewrite X in Y. destruct ys; discriminate.
  - split.
    + intros H. exfalso. unfold store_array in H. apply bind_good in H as [start [_ H]]. apply bind_good in H as [r [H _]].
      destruct l as [|e l]; [now apply No|]. now apply elements_minus in H.
    + intros H. exfalso. destruct old as [[a|a|a|[|u a]|a|[|u a]]|]; discriminate.
Qed.
Lemma any_ok : forall st o old rh x new, (o = Minus -> rh <> RArray []) -> evaluates st rh x -> effect o old x new ->
  exists sw, store_any st o old rh = Good (sw, new).
Proof.
  intros st o old rh x new No E H. apply store_var_ok in H as [sw H].
  assert (F : (forall m, x <> VStruct m) -> store_var o old x = Good (false, new)) by (intros N; assert (S0 := sw_false _ _ _ _ N H); cbn in S0; now subst).
  destruct E as [raw x R|z|b|pa n m x Nm Sx|l xs G|l ms N G]; cbn [store_any].
  - apply subst_reads in R. rewrite R. cbn [bind]. specialize (F ltac:(discriminate)). apply text_var in F. rewrite F. cbn. eauto.
  - specialize (F ltac:(discriminate)). apply int_var in F. rewrite F. cbn. eauto.
  - specialize (F ltac:(discriminate)). apply bool_var in F. rewrite F. cbn. eauto.
  - apply var_name_named in Nm. rewrite Nm. cbn [bind]. apply source_sees in Sx. rewrite Sx. eauto.
  - specialize (F ltac:(discriminate)). apply (array_texts st o old l xs) in F; [rewrite F; cbn; eauto| |exact G]. intros K E. now apply (No K); subst.
  - specialize (F ltac:(discriminate)). apply (array_structs st o old l ms) in F; [rewrite F; cbn; eauto| |exact N|exact G]. intros K E. now apply (No K); subst.
Qed.
Lemma any_only : forall st o old rh p, (o = Minus -> rh <> RArray []) -> store_any st o old rh = Good p ->
  exists x, evaluates st rh x /\ effect o old x (snd p).
Proof.
  intros st o old rh p No H. destruct rh as [raw|z|b|pa n|l|b]; cbn [store_any] in H.
  - apply bind_good in H as [x [H1 H]]. apply bind_good in H as [v [H2 H]]. injection H as <-. apply subst_reads in H1. exists (VStr x). split; [now constructor|].
    apply text_var in H2. now apply store_var_only in H2.
  - apply bind_good in H as [v [H2 H]]. injection H as <-. exists (VInt z). split; [constructor|]. apply int_var in H2. now apply store_var_only in H2.
  - apply bind_good in H as [v [H2 H]]. injection H as <-. exists (VBool b). split; [constructor|]. apply bool_var in H2. now apply store_var_only in H2.
  - apply bind_good in H as [m [Nm H]]. apply var_name_named in Nm. destruct (source st pa m) as [x|] eqn:Sx; [|discriminate]. apply source_sees in Sx.
    exists x. split; [econstructor; eassumption|]. now apply store_var_only.
  - apply bind_good in H as [v [H2 H]]. injection H as <-. cbn [snd].
    assert (Nm : o = Minus -> l <> []) by (intros K E; now apply (No K); subst).
    assert (H3 := H2). unfold store_array in H3. apply bind_good in H3 as [start [_ H3]]. apply bind_good in H3 as [r [H3 _]].
    assert (Om : o <> Minus) by (intros ->; destruct l as [|e l]; [now apply Nm|now apply elements_minus in H3]).
    apply elements_gathers in H3 as [[xs [G _]]|[ms [G [N _]]]]; [| |exact Om].
    + exists (VStrs xs). split; [now constructor|]. apply (array_texts st o old l xs) in H2; [|exact Nm|exact G]. now apply store_var_only in H2.
    + exists (VStructs ms). split; [now constructor|]. apply (array_structs st o old l ms) in H2; [|exact Nm|exact N|exact G]. now apply store_var_only in H2.
  - discriminate.
Qed.
(** Declare, with the value stored by one function. *)
Lemma declare_any : forall body n d o rh s, (forall b, rh <> RStruct b) ->
  declare body n d o rh s = bind (store_any (stack s) o (old_value n d (stack s)) rh) (fun p =>
    Good (with_stack (if fst p then upd_nth (at_ d) (swap_frame n (snd p)) (stack s) else set_var n (snd p) d (stack s)) s)).
Proof.
  intros body n d o rh s N. destruct rh as [raw|z|b|pa m|l|b]; cbn [declare store_any].
  - destruct (subst (stack s) raw); [|reflexivity|reflexivity]. cbn [bind]. destruct (store_text _ _ _); reflexivity.
  - destruct (store_int _ _ _); reflexivity.
  - destruct (store_bool _ _ _); reflexivity.
  - destruct (var_name (stack s) m) as [q|e|u]; [|reflexivity|reflexivity]. cbn [bind]. unfold source.
    assert (X : match (if pa then parent_decl q (stack s) else lookup q (stack s)) with Some (_, v) => Some (val v) | None => None end =
      match lookup q (if pa then tl (stack s) else stack s) with Some (_, v) => Some (val v) | None => None end).
    { destruct pa; [|reflexivity]. unfold parent_decl. destruct (lookup q (tl (stack s))) as [[i v]|]; reflexivity. }
    rewrite <- X. destruct (if pa then parent_decl q (stack s) else lookup q (stack s)) as [[i v]|]; reflexivity.
  - destruct (store_array _ _ _ _); reflexivity.
  - exfalso. now apply (N b).
Qed.

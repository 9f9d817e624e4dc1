(** C38: variables and scopes of BFF files. *)
From Coq Require Import String List Arith NArith ZArith Bool Ascii Lia.
Import ListNotations.
Require Import Verif.M_Path Verif.M_Scope Verif.S_Scope Verif.P_Scope Verif.P_Scope2.
Open Scope nat_scope.

Lemma state_eta : forall s, {| stack := stack s; funs := funs s; out := out s |} = s.
Proof. intros []. reflexivity. Qed.
Lemma parse_one : forall r x s, parse (S r) [x] s = step (parse r) (parse (pred r)) x s.
Proof.
  intros r x s. rewrite parse_cons. destruct (step (parse r) (parse (pred r)) x s) as [s1|e|u]; cbn [bind]; [apply parse_nil|reflexivity|reflexivity].
Qed.

(** A name stands for one value only. *)
Theorem C38_one_value : forall st n x y, sees st n x -> sees st n y -> x = y.
Proof. exact sees_one. Qed.
Print Assumptions C38_one_value.

(** Reading a variable gives the value of the innermost scope that declares it: Print( .Name ), a property read by a function, $Name$ in a
    text.  When no scope does, Print and $Name$ are errors, and the property is not set. *)
Theorem C38_read_innermost : forall r s n,
  (forall x, sees (stack s) n x ->
     parse (S r) [SPrint false (NPlain n)] s = Good (say (Printed n x) s) /\
     parse (S (S r)) [SBlock [n] []] s = Good (say (Read [Some x]) s) /\
     (forall t, x = VStr t -> n <> [] -> ~ In "$"%char n ->
        parse (S r) [SPrintText (["$"%char] ++ n ++ ["$"%char])] s = Good (say (PrintedText t) s))) /\
  (unknown (stack s) n ->
     parse (S r) [SPrint false (NPlain n)] s = Fail 1009 /\
     parse (S (S r)) [SBlock [n] []] s = Good (say (Read [None]) s)).
Proof.
  intros r s n. split.
  - intros x H. apply sees_lookup in H as [i [v [E V]]]. split; [|split].
    + rewrite parse_one. cbn [step var_name bind]. rewrite lookup_fresh, E. cbn. now rewrite V.
    + rewrite parse_one. cbn [step]. rewrite parse_nil. cbn [bind]. unfold pop, say, with_stack, old_value. cbn [stack funs out map get_var tl].
      rewrite lookup_fresh, E. cbn. now rewrite V.
    + intros t -> Nn Nd. rewrite parse_one. cbn [step]. unfold subst. cbn [app subst_from Ascii.eqb Bool.eqb].
      assert (K : forall m acc, rev acc ++ m = n -> subst_from (fresh :: stack s) (Naming acc) (m ++ ["$"%char]) = Good t).
      { induction m as [|c m IH]; intros acc Ea.
        - rewrite app_nil_r in Ea. cbn [app subst_from]. cbn [Ascii.eqb Bool.eqb]. destruct acc as [|d acc]; [cbn in Ea; congruence|].
          rewrite Ea. cbn [get_var]. rewrite lookup_fresh, E. cbn [shift]. rewrite V. cbn [subst_from bind]. now rewrite app_nil_r.
        - cbn [app subst_from]. destruct (Ascii.eqb_spec c "$"%char) as [->|Nc].
          + exfalso. apply Nd. rewrite <- Ea. apply in_or_app. right. now left.
          + apply IH. cbn [rev]. rewrite <- app_assoc. exact Ea. }
      change (bind (subst_from (fresh :: stack s) (Naming []) (n ++ ["$"%char])) (fun t0 => Good (say (PrintedText t0) s)) = Good (say (PrintedText t) s)).
      rewrite (K n [] eq_refl). reflexivity.
  - intros H. apply unknown_lookup in H. split.
    + rewrite parse_one. cbn [step var_name bind]. rewrite lookup_fresh, H. reflexivity.
    + rewrite parse_one. cbn [step]. rewrite parse_nil. cbn [bind]. unfold pop, say, with_stack, old_value. cbn [stack funs out map get_var tl].
      rewrite lookup_fresh, H. reflexivity.
Qed.
Print Assumptions C38_read_innermost.

Lemma declare_here : forall r n o rh s s' f t, plain_rhs rh = true -> Forall (counts 255) (f :: t) -> stack s = f :: t ->
  declare (parse r) n None o rh s = Good s' -> exists x, stack s' = put_frame n x f :: t \/ stack s' = swap_frame n x f :: t.
Proof.
  intros r n o rh s s' f t P C Es H. destruct rh as [raw|z|b|pa src|l|b]; cbn [declare] in H; rewrite Es in H.
  - apply bind_good in H as [x [_ H]]. apply bind_good in H as [v [_ H]]. injection H as <-. exists v. now left.
  - apply bind_good in H as [v [_ H]]. injection H as <-. exists v. now left.
  - apply bind_good in H as [v [_ H]]. injection H as <-. exists v. now left.
  - apply bind_good in H as [m [_ H]]. destruct (if pa then _ else _) as [[i v]|]; [|discriminate].
    apply bind_good in H as [[sw x] [_ H]]. injection H as <-. exists x. destruct sw; [now right|now left].
  - apply bind_good in H as [v [_ H]]. injection H as <-. exists v. now left.
  - destruct o; try discriminate.
    destruct (match old_value n None (f :: t) with None => true | Some (VStruct _) => true | _ => false end); [|discriminate].
    apply bind_good in H as [s1 [Hb H]].
    assert (Q := parse_ok false r ltac:(discriminate) false b (with_stack (fresh :: f :: t) s)). rewrite Hb in Q.
    destruct Q as [Q1 [Q2 _]]; [intros _; exact P|discriminate|exact (good_fresh false 255 _ C)|]. cbn [stack with_stack tl] in Q2. apply kept_stack_eq in Q2.
    destruct (stack s1) as [|top rest]; [discriminate|]. cbn [tl] in Q2. subst rest. cbn [nth_error at_] in H.
    exists (VStruct (map (fun v => (vname v, val v)) (vars top))). left.
    destruct (local n f) as [[vn [] vf]|]; try discriminate; injection H as <-; reflexivity.
Qed.
Lemma declares_local : forall f g n, local n f = local n g -> forall x, declares f n x <-> declares g n x.
Proof.
  intros f g n E x. split; intros H; apply declares_find in H as [v [Lo V]].
  - rewrite E in Lo. rewrite <- V. now apply find_declares.
  - rewrite <- E in Lo. rewrite <- V. now apply find_declares.
Qed.
Lemma put_or_swap : forall n x f f', f' = put_frame n x f \/ f' = swap_frame n x f ->
  declares f' n x /\ (forall m y, m <> n -> (declares f' m y <-> declares f m y)).
Proof.
  intros n x f f' [->| ->]; split.
  - destruct (local_put_same n x f) as [v [E V]]. exists v. split; [now apply has_find|exact V].
  - intros m y H. apply declares_local. now apply local_put_other.
  - destruct (local_swap_same n x f) as [v [E V]]. exists v. split; [now apply has_find|exact V].
  - intros m y H. apply declares_local. now apply local_swap_other.
Qed.
Lemma proper_counts : forall st, proper st -> Forall (counts 255) st.
Proof. intros st H. apply proper_good in H. now apply good_counts in H. Qed.

(** Assigning to .Name in any way declares it in the current scope, and changes no other variable of this scope and nothing in the scopes
    around it. *)
Theorem C38_write_here : forall r s s' n o rh f t, proper (stack s) -> stack s = f :: t -> plain_rhs rh = true ->
  parse (S r) [SSet false (NPlain n) o rh] s = Good s' ->
  exists f', stack s' = f' :: t /\ (exists x, declares f' n x) /\ (forall m x, m <> n -> (declares f' m x <-> declares f m x)).
Proof.
  intros r s s' n o rh f t P Es Pl H. rewrite parse_one in H. cbn [step var_name bind] in H. rewrite Es in H. cbn [note] in H.
  assert (C := proper_counts _ P). rewrite Es in C.
  destruct (declare_here r n o rh (with_stack ({| vars := vars f; last := Some (n, None) |} :: t) s) s' {| vars := vars f; last := Some (n, None) |} t Pl) as [x Hx]; [inversion C; constructor; assumption|reflexivity|exact H|].
  assert (X : exists f', stack s' = f' :: t /\ (f' = put_frame n x {| vars := vars f; last := Some (n, None) |} \/ f' = swap_frame n x {| vars := vars f; last := Some (n, None) |})) by (destruct Hx; eauto).
  destruct X as [f' [E1 E2]]. destruct (put_or_swap _ _ _ _ E2) as [D1 D2]. exists f'. split; [exact E1|]. split; [eauto|]. exact D2.
Qed.
Print Assumptions C38_write_here.

Lemma cut_spec : forall t s, t <> [] -> without t s (cut 0 t s).
Proof.
  intros t s Nt.
  assert (Sk : forall k s, cut k t s = cut 0 t (skipn k s)) by (induction k as [|k IH]; intros [|c s0]; try reflexivity; apply IH).
  assert (St : forall p u, starts p u = true <-> exists r, u = p ++ r).
  { induction p as [|a p IH]; intros u; cbn; [split; eauto|]. destruct u as [|b u]; [split; [discriminate|intros [r E]; discriminate]|].
    rewrite andb_true_iff, Ascii.eqb_eq, IH. split; [intros [-> [r ->]]; eauto|intros [r E]; injection E as -> ->; eauto]. }
  remember (length s) as k eqn:Ek. assert (Hk : length s <= k) by lia. clear Ek. revert s Hk. induction k as [|k IH]; intros s Hk.
  - destruct s; [constructor|cbn in Hk; lia].
  - destruct s as [|c s]; [constructor|]. cbn [cut]. destruct (starts t (c :: s)) eqn:E.
    + apply St in E as [r E]. destruct t as [|d t]; [congruence|]. cbn [length] in *. rewrite Nat.sub_0_r || idtac.
      cbn in E. injection E as -> ->. rewrite Sk. replace (S (length t) - 1) with (length t) by lia.
      rewrite skipn_app, skipn_all, Nat.sub_diag. cbn [app skipn]. change (d :: t ++ r) with ((d :: t) ++ r). apply without_hit. apply IH.
      rewrite app_length in Hk. lia.
    + apply without_miss; [|apply IH; cbn in Hk; lia]. intros r Er. assert (X : starts t (c :: s) = true) by (apply St; eauto). congruence.
Qed.
Lemma without_one : forall t a b c, t <> [] -> without t a b -> without t a c -> b = c.
Proof.
  intros t a b c Nt H. revert c. induction H as [|a b H IH|x a b M H IH]; intros c K.
  - inversion K as [|a' b' K' E1 E2|]; subst; [reflexivity|]. destruct t; [congruence|discriminate].
  - inversion K as [E1 E2|a' b' K' E1 E2|x a' b' M K' E1 E2]; subst.
    + destruct t; [congruence|discriminate].
    + apply app_inv_head in E1. subst. auto.
    + exfalso. apply (M a). exact E1.
  - inversion K as [E1 E2|a' b' K' E1 E2|y a' b' M' K' E1 E2]; subst.
    + exfalso. apply (M a'). symmetry. exact E1.
    + f_equal. auto.
Qed.

(** The value then seen: a text replaces, is appended to, or is removed from what the name stood for, wherever it was declared. *)
Theorem C38_text_value : forall r s n o t old x, stack s <> [] -> literal t -> stands (stack s) n old -> text_effect t o old x ->
  exists s', parse (S r) [SSet false (NPlain n) o (RText t)] s = Good s' /\ sees (stack s') n x /\ tl (stack s') = tl (stack s).
Proof.
  intros r s n o t old x Ne Lt St E. rewrite parse_one. cbn [step var_name bind].
  destruct (stack s) as [|f rest] eqn:Es; [congruence|]. cbn [note declare with_stack stack].
  set (st := {| vars := vars f; last := Some (n, None) |} :: rest).
  assert (Ov : old_value n None st = old).
  { assert (V : old_value n None st = old_value n None (f :: rest)) by reflexivity. rewrite V. clear V.
    destruct old as [y|]; cbn [stands] in St.
    - now apply sees_get.
    - apply unknown_lookup in St. unfold old_value. cbn [get_var]. now rewrite St. }
  rewrite (subst_literal st t Lt). cbn [bind]. rewrite Ov.
  assert (Sx : store_text o old t = Good x).
  { destruct E as [|a|a|a b Nt W|l|l|l]; cbn [store_text]; try reflexivity.
    - do 2 f_equal. unfold remove_all. destruct t as [|c t]; [congruence|]. eapply without_one; [exact Nt|now apply cut_spec|exact W].
    - do 2 f_equal. apply filter_ext. intros y. unfold same. destruct (list_eq_dec ascii_dec y t); reflexivity. }
  rewrite Sx. cbn [bind]. eexists. split; [reflexivity|]. cbn [stack with_stack set_var at_ upd_nth st tl]. split; [|reflexivity].
  apply sees_here. exact (proj1 (put_or_swap n x _ _ (or_introl eq_refl))).
Qed.
Print Assumptions C38_text_value.

(** Copying: .Name = .Other makes a new name stand for what the other one stands for. *)
Theorem C38_copy_value : forall r s n m x, stack s <> [] -> unknown (stack s) n -> sees (stack s) m x ->
  exists s', parse (S r) [SSet false (NPlain n) Assign (RVar false (NPlain m))] s = Good s' /\ sees (stack s') n x /\ tl (stack s') = tl (stack s).
Proof.
  intros r s n m x Ne U Sm. rewrite parse_one. cbn [step var_name bind].
  destruct (stack s) as [|f rest] eqn:Es; [congruence|]. cbn [note declare with_stack stack].
  set (st := {| vars := vars f; last := Some (n, None) |} :: rest). cbn [var_name bind].
  assert (Ov : old_value n None st = None).
  { change (old_value n None (f :: rest) = None). apply unknown_lookup in U. unfold old_value. cbn [get_var]. now rewrite U. }
  apply sees_lookup in Sm as [i [v [Lm V]]]. change (lookup m st) with (lookup m (f :: rest)). rewrite Lm, Ov. cbn [store_var bind fst snd].
  eexists. split; [reflexivity|]. cbn [stack with_stack set_var at_ upd_nth st tl]. split; [|reflexivity].
  rewrite V. apply sees_here. exact (proj1 (put_or_swap n x _ _ (or_introl eq_refl))).
Qed.
Print Assumptions C38_copy_value.

(** Assigning to ^Name changes that variable in the nearest scope outside the current one that declares it, and no other variable; it is
    an error when there is none or when the variable is frozen. *)
Theorem C38_write_outer : forall r s n o rh f t, stack s = f :: t -> (forall b, rh <> RStruct b) ->
  (unknown t n -> parse (S r) [SSet true (NPlain n) o rh] s = Fail 1009) /\
  (forall t1 g t2 v, t = t1 ++ g :: t2 -> (forall h, In h t1 -> silent h n) -> has g n v ->
     (frozen v <> 0%N -> parse (S r) [SSet true (NPlain n) o rh] s = Fail 1060) /\
     (forall s', parse (S r) [SSet true (NPlain n) o rh] s = Good s' -> exists f' g',
        stack s' = f' :: t1 ++ g' :: t2 /\ vars f' = vars f /\ (exists x, declares g' n x) /\
        forall m x, m <> n -> (declares g' m x <-> declares g m x))).
Proof.
  intros r s n o rh f t Es Ns. rewrite parse_one. cbn [step var_name bind]. rewrite Es. unfold parent_decl. cbn [tl]. split.
  - intros U. apply unknown_lookup in U. rewrite U. reflexivity.
  - intros t1 g t2 v -> Q H.
    assert (Lk : lookup n (t1 ++ g :: t2) = Some (length t1, v)).
    { clear -Q H. induction t1 as [|h t1 IH]; cbn [app lookup length].
      - apply has_find in H. now rewrite H.
      - assert (Hh : silent h n) by (apply Q; now left). apply silent_find in Hh. rewrite Hh, IH; [reflexivity|]. intros k Hk. apply Q. now right. }
    rewrite Lk. cbn [shift plus]. split.
    + intros F. destruct (0 <? frozen v)%N eqn:E; [reflexivity|]. apply N.ltb_ge in E. lia.
    + intros s' K. destruct (0 <? frozen v)%N; [discriminate|]. cbn [note with_stack] in K.
      set (f1 := {| vars := vars f; last := Some (n, Some (S (length t1))) |}) in *.
      assert (X : forall h : frame -> frame, upd_nth (S (length t1)) h (f1 :: t1 ++ g :: t2) = f1 :: t1 ++ h g :: t2).
      { intros h. cbn [upd_nth]. f_equal. clear. induction t1 as [|k t1 IH]; cbn; [reflexivity|]. now rewrite IH. }
      assert (Y : exists x, stack s' = f1 :: t1 ++ put_frame n x g :: t2 \/ stack s' = f1 :: t1 ++ swap_frame n x g :: t2).
      { destruct rh as [raw|z|b|pa src|l|b]; cbn [declare stack with_stack] in K.
        - apply bind_good in K as [x [_ K]]. apply bind_good in K as [y [_ K]]. injection K as <-. exists y. left. apply X.
        - apply bind_good in K as [y [_ K]]. injection K as <-. exists y. left. apply X.
        - apply bind_good in K as [y [_ K]]. injection K as <-. exists y. left. apply X.
        - apply bind_good in K as [m [_ K]]. destruct (if pa then _ else _) as [[i u]|]; [|discriminate].
          apply bind_good in K as [[sw x] [_ K]]. injection K as <-. exists x. destruct sw; [right|left]; apply X.
        - apply bind_good in K as [y [_ K]]. injection K as <-. exists y. left. apply X.
        - exfalso. now apply (Ns b). }
      destruct Y as [x Y].
      assert (Z : exists g', stack s' = f1 :: t1 ++ g' :: t2 /\ (g' = put_frame n x g \/ g' = swap_frame n x g)) by (destruct Y; eauto).
      destruct Z as [g' [Z1 Z2]]. destruct (put_or_swap _ _ _ _ Z2) as [D1 D2]. exists f1, g'. repeat split; eauto; apply D2; assumption.
Qed.
Print Assumptions C38_write_outer.

(** Every state statements are run in is proper. *)
Theorem C38_proper : forall r b s s',
  (proper (stack s) -> parse r b s = Good s' -> proper (stack s')) /\ (proper (stack s) -> proper (fresh :: stack s)) /\ proper [fresh].
Proof.
  intros r b s s'. split; [|split].
  - intros P H. apply proper_good in P. assert (Q := parse_ok false r ltac:(discriminate) true b s ltac:(discriminate) ltac:(discriminate) P).
    rewrite H in Q. apply proper_good. apply Q.
  - intros P. apply proper_good, good_fresh, proper_counts, P.
  - apply proper_good. split; [constructor|split; [constructor|exact I]].
Qed.
Print Assumptions C38_proper.

(** Leaving a scope: if nothing in it is assigned with '^', all variables are what they were, in every scope. *)
Theorem C38_scope_restores : forall r s s' x b, proper (stack s) -> no_caret b = true ->
  x = SScope b \/ (exists ng n, x = SIf ng n b) \/ (exists h, x = SForEach h b) \/ (exists props, x = SBlock props b) ->
  parse (S r) [x] s = Good s' -> stack s' = stack s.
Proof.
  intros r s s' x b P Nc Hx H. assert (C := proper_counts _ P). rewrite parse_one in H.
  assert (Body : forall s1, parse r b (with_stack (fresh :: stack s) s) = Good s1 -> tl (stack s1) = stack s).
  { intros s1 K. assert (Q := parse_ok false r ltac:(discriminate) false b (with_stack (fresh :: stack s) s)). rewrite K in Q.
    destruct Q as [_ [Q _]]; [auto|discriminate|exact (good_fresh false 255 _ C)|]. apply kept_stack_eq in Q. exact Q. }
  destruct Hx as [->|[[ng [n ->]]|[[h ->]|[props ->]]]]; cbn [step] in H.
  - apply bind_good in H as [s1 [K H]]. injection H as <-. exact (Body s1 K).
  - apply bind_good in H as [m [_ H]]. destruct (lookup m (fresh :: stack s)) as [[i v]|]; [|discriminate]. destruct (val v); try discriminate.
    destruct (xorb ng b0); [|injection H as <-; reflexivity]. apply bind_good in H as [s1 [K H]]. injection H as <-. exact (Body s1 K).
  - assert (Q := foreach_ok false false 255 (parse r) (parse (pred r)) (conj (N.le_refl _) (fun e => match Bool.diff_false_true e with end))
      (fun c' => parse_ok false r ltac:(discriminate) c') (fun c' => parse_ok false (pred r) ltac:(discriminate) c') h b s (fun _ => Nc) ltac:(discriminate) C).
    cbn [step] in Q. rewrite H in Q. destruct Q as [Q _]. now apply kept_stack_eq in Q.
  - apply bind_good in H as [s1 [K H]]. injection H as <-. exact (Body s1 K).
Qed.
Print Assumptions C38_scope_restores.

(** Leaving a scope in any case: the variables around it are still there, in the same order and with the same kind of value; '^' may have
    changed values. *)
Theorem C38_scope_shape : forall r s s' x b, proper (stack s) ->
  x = SScope b \/ (exists ng n, x = SIf ng n b) \/ (exists h, x = SForEach h b) \/ (exists props, x = SBlock props b) ->
  parse (S r) [x] s = Good s' -> kept_stack true false (stack s) (stack s').
Proof.
  intros r s s' x b P Hx H. assert (C := proper_counts _ P). rewrite parse_one in H.
  assert (Body : forall s1, parse r b (with_stack (fresh :: stack s) s) = Good s1 -> kept_stack true false (stack s) (tl (stack s1))).
  { intros s1 K. assert (Q := parse_ok false r ltac:(discriminate) true b (with_stack (fresh :: stack s) s)). rewrite K in Q.
    destruct Q as [_ [Q _]]; [discriminate|discriminate|exact (good_fresh true 255 _ C)|]. exact Q. }
  destruct Hx as [->|[[ng [n ->]]|[[h ->]|[props ->]]]]; cbn [step] in H.
  - apply bind_good in H as [s1 [K H]]. injection H as <-. exact (Body s1 K).
  - apply bind_good in H as [m [_ H]]. destruct (lookup m (fresh :: stack s)) as [[i v]|]; [|discriminate]. destruct (val v); try discriminate.
    destruct (xorb ng b0); [|injection H as <-; apply kept_stack_refl]. apply bind_good in H as [s1 [K H]]. injection H as <-. exact (Body s1 K).
  - assert (Q := foreach_ok true false 255 (parse r) (parse (pred r)) (conj (N.le_refl _) (fun e => match Bool.diff_false_true e with end))
      (fun c' => parse_ok false r ltac:(discriminate) c') (fun c' => parse_ok false (pred r) ltac:(discriminate) c') h b s ltac:(discriminate) ltac:(discriminate) C).
    cbn [step] in Q. rewrite H in Q. apply Q.
  - apply bind_good in H as [s1 [K H]]. injection H as <-. exact (Body s1 K).
Qed.
Print Assumptions C38_scope_shape.

(** A user function sees nothing of its caller but its arguments: a call leaves every variable as it was, and two callers with the same
    functions, in whose scopes the names stand for the same values, get the same from it, whatever other scopes there are. *)
Theorem C38_call_isolated : forall r f args,
  (forall s s', parse (S r) [SCall f args] s = Good s' -> stack s' = stack s) /\
  (forall s1 s2, funs s1 = funs s2 -> (forall n x, sees (stack s1) n x <-> sees (stack s2) n x) -> Forall near args ->
     same_end s1 s2 (parse (S r) [SCall f args] s1) (parse (S r) [SCall f args] s2)).
Proof.
  intros r f args. split.
  - intros s s' H. rewrite parse_one in H. cbn [step] in H. destruct (assoc f (funs s)) as [[ps b]|]; [|discriminate].
    destruct (length args =? length ps); [|discriminate]. apply bind_good in H as [top [_ H]]. apply bind_good in H as [s1 [_ H]]. injection H as <-. reflexivity.
  - intros s1 s2 Ef V Nr. apply view_sees in V. rewrite !parse_one. cbn [step]. rewrite <- Ef.
    destruct (assoc f (funs s1)) as [[ps b]|]; [|reflexivity]. destruct (length args =? length ps); [|reflexivity].
    rewrite (view_args ps args fresh (stack s1) (stack s2) V Nr). destruct (arguments ps args fresh (stack s2)) as [top|e|u]; [|reflexivity|reflexivity]. cbn [bind].
    set (s0 := {| stack := [top]; funs := funs s1; out := [] |}).
    assert (E1 : with_stack [top] s1 = pre (out s1) s0) by (unfold with_stack, pre, s0; cbn; now rewrite app_nil_r).
    assert (E2 : with_stack [top] s2 = pre (out s2) s0) by (unfold with_stack, pre, s0; cbn; rewrite app_nil_r, Ef; reflexivity).
    rewrite E1, E2, !(blind_parse _ r b s0). destruct (parse r b s0) as [s3|e|u]; cbn [rmap bind]; [|reflexivity|reflexivity].
    exists (out s3). repeat split.
Qed.
Print Assumptions C38_call_isolated.

(** What the arguments are: proved when no argument names a parameter of the function.  Missing: arguments that do, where it is false
    (below), and arguments with '^' or with substitutions. *)
Theorem C38_call_arguments_partial : forall r f args s ps b vs,
  assoc f (funs s) = Some (ps, b) -> length args = length ps -> (forall a p, In a args -> In p ps -> ~ mentions a p) ->
  Forall2 (means (stack s)) args vs -> NoDup ps ->
  parse (S r) [SCall f args] s =
  bind (parse r b (with_stack [{| vars := map (fun p => {| vname := fst p; val := snd p; frozen := 0 |}) (combine ps vs); last := None |}] s))
       (fun s' => Good (with_stack (stack s) s')).
Proof.
  intros r f args s ps b vs Ea Len Nm Mn Nd. rewrite parse_one. cbn [step]. rewrite Ea, Len, Nat.eqb_refl.
  assert (G : forall ps args vs acc, length args = length ps -> Forall2 (means (stack s)) args vs -> NoDup ps ->
     (forall v, In v acc -> ~ In (vname v) ps) -> (forall a v, In a args -> In v acc -> ~ mentions a (vname v)) ->
     (forall a p, In a args -> In p ps -> ~ mentions a p) ->
     arguments ps args {| vars := acc; last := None |} (stack s) =
     Good {| vars := acc ++ map (fun p => {| vname := fst p; val := snd p; frozen := 0 |}) (combine ps vs); last := None |}).
  { clear. induction ps as [|p ps IH]; intros [|a args] vs acc Len M Nd Ac Am Nm; try discriminate.
    - inversion M; subst. cbn. now rewrite app_nil_r.
    - inversion M as [|a0 v a1 vs' Ma M']; subst. inversion Nd as [|p0 ps0 Np Nd']; subst. cbn [arguments combine map fst snd].
      assert (Ev : match a with
            | AText raw => bind (subst ({| vars := acc; last := None |} :: stack s) raw) (fun x => Good (VStr x))
            | AInt z => Good (VInt z)
            | ABool b => Good (VBool b)
            | AVar parent n => bind (var_name ({| vars := acc; last := None |} :: stack s) n) (fun n =>
                match source ({| vars := acc; last := None |} :: stack s) parent n with Some v => Good v | None => Fail 1009 end)
            end = Good v).
      { destruct Ma as [z|c|t Lt|n x Sn]; try reflexivity.
        - now rewrite subst_literal.
        - cbn [var_name bind]. rewrite source_view.
          assert (E : old_value n None ({| vars := acc; last := None |} :: stack s) = Some x).
          { apply sees_get. apply sees_out; [|exact Sn]. intros u Hu En. cbn [vars] in Hu. apply (Am (AVar false (NPlain n)) u); [now left|exact Hu|]. now rewrite En. }
          now rewrite E. }
      rewrite Ev. cbn [bind].
      assert (Pf : put_frame p v {| vars := acc; last := None |} = {| vars := acc ++ [{| vname := p; val := v; frozen := 0 |}]; last := None |}).
      { unfold put_frame. cbn [vars last]. f_equal. assert (Na : forall u, In u acc -> vname u <> p) by (intros u Hu En; apply (Ac u Hu); left; congruence).
        clear -Na. induction acc as [|u acc IH]; [reflexivity|]. cbn [put_var app]. destruct (same p (vname u)) eqn:E.
        - apply same_iff in E. exfalso. apply (Na u); [now left|congruence].
        - f_equal. apply IH. intros w Hw. apply Na. now right. }
      rewrite Pf. rewrite (IH args vs').
      + now rewrite <- app_assoc.
      + now injection Len.
      + exact M'.
      + exact Nd'.
      + intros u Hu Hp. apply in_app_or in Hu as [Hu|[<-|[]]]; [apply (Ac u Hu); now right|]. contradiction.
      + intros a2 u Ha Hu. apply in_app_or in Hu as [Hu|[<-|[]]]; [apply Am; [now right|exact Hu]|]. apply Nm; [now right|now left].
      + intros a2 q Ha Hq. apply Nm; now right. }
  assert (X := G ps args vs [] Len Mn Nd). cbn [app] in X. change fresh with {| vars := []; last := None |}. rewrite X; auto.
Qed.
Print Assumptions C38_call_arguments_partial.

(** An argument that names an earlier parameter is given the value of that parameter, not the one the name has where the call is written. *)
Definition shadowed : list stmt :=
  [SFunction (L "f") [L "A"; L "B"] [SPrint false (NPlain (L "B"))];
   SSet false (NPlain (L "A")) Assign (RText (L "caller"));
   SCall (L "f") [AText (L "first"); AVar false (NPlain (L "A"))]].
Theorem C38_call_arguments_refuted : exists s, run shadowed = Good s /\ sees (stack s) (L "A") (VStr (L "caller")) /\
  out s = [Printed (L "B") (VStr (L "first"))].
Proof. eexists. split; [vm_compute; reflexivity|]. split; [|reflexivity]. apply sees_lookup. vm_compute. eauto. Qed.
Print Assumptions C38_call_arguments_refuted.

Lemma range_ok : forall r b u, r <= 126 -> four b = true -> parse r b {| stack := [fresh]; funs := []; out := [] |} = Undef u -> u = Overflow.
Proof.
  intros r b u Hr F H. assert (Q := parse_ok true r (fun _ => Hr) true b {| stack := [fresh]; funs := []; out := [] |} ltac:(discriminate)). rewrite H in Q.
  apply Q; auto.
  - intros _. split; [exact F|]. intros f ps b0 [].
  - split; [constructor|split; [constructor|exact I]].
Qed.
(** A program in which no ForEach goes through more than four arrays at once has no undefined behaviour but the overflow of a number. *)
Theorem C38_no_out_of_range : forall b u, four b = true -> run b = Undef u -> u = Overflow.
Proof. intros b u. exact (range_ok 126 b u (le_n 126)). Qed.
Print Assumptions C38_no_out_of_range.

(** With 256 arrays the freeze count comes back to 0, so the array can be changed in the loop, and an element past its end is read. *)
Definition wrapping : list stmt :=
  [SSet false (NPlain (L "A")) Assign (RArray [EText (L "x"); EText (L "y")]);
   SForEach (repeat (NPlain (L "I"), (false, NPlain (L "A"))) 256) [SSet true (NPlain (L "A")) Assign (RArray [])]].
Theorem C38_loop_arrays_refuted : run wrapping = Undef OutOfRange.
Proof. vm_compute. reflexivity. Qed.
Print Assumptions C38_loop_arrays_refuted.

(** The body of a ForEach over an array is run once for each element, in order, with the local name standing for the element; the other
    names stand for what they stood for.  Nothing the body does, in a program of at most four arrays per loop, changes the array. *)
Theorem C38_foreach : forall r s s' x a arr b, S r <= 126 -> proper (stack s) -> calm (S r) (stack s) -> four b = true -> four_all s ->
  sees (stack s) a arr -> parse (S r) [SForEach [(NPlain x, (false, NPlain a))] b] s = Good s' ->
  exists s0 s1, out s0 = out s /\ funs s0 = funs s /\ (forall n y, sees (stack s0) n y <-> sees (stack s) n y) /\
    passes (parse (pred r) b) x (elements_of arr) s0 s1 /\
    out s' = out s1 /\ funs s' = funs s1 /\ (forall n y, sees (stack s') n y <-> sees (stack s1) n y).
Proof.
  intros r s s' x a arr b Hr P Cm Fb Fs Sa H. rewrite parse_one in H.
  assert (C := proj1 (calm_counts _ _) Cm). assert (C255 := proper_counts _ P).
  apply sees_lookup in Sa as [i [v [La V]]]. cbn [step header var_name bind] in H. rewrite lookup_fresh, La in H. cbn [shift plus] in H. rewrite V in H.
  destruct (array_len arr) as [k|] eqn:Al; [|discriminate]. cbn [bind fst snd] in H.
  assert (View0 : forall st, view (fresh :: st) st).
  { intros st n. unfold old_value. cbn [get_var]. rewrite lookup_fresh. destruct (lookup n st) as [[j u]|]; reflexivity. }
  destruct k as [|k].
  - injection H as <-. exists s, s. assert (E : elements_of arr = []) by (apply length_zero_iff_nil; now apply elements_len). rewrite E.
    repeat split; auto. constructor.
  - cbn [fold_left snd] in H. set (fz := refreeze 1 (S i, a) (fresh :: stack s)) in *. apply bind_good in H as [s1 [Hi H]]. injection H as <-.
    assert (Ci : Forall (counts (bnd true (S r))) (fresh :: stack s)) by (constructor; [constructor|exact C]).
    assert (Cf : Forall (counts (bnd true (pred r))) fz).
    { eapply Forall_impl; [|apply (refreeze_counts (bnd true (S r))); [|exact Ci]].
      - intros f. apply counts_mono. unfold bnd. destruct r; cbn [pred]; lia.
      - unfold bnd. lia. }
    assert (Gv : get_var a (Some (S i)) (fresh :: stack s) = Some v) by (apply lookup_get; rewrite lookup_fresh, La; reflexivity).
    assert (Fv : (frozen v <= bnd true (S r))%N).
    { cbn [get_var] in Gv. destruct (nth_error (fresh :: stack s) (S i)) as [f0|] eqn:En; [|discriminate]. apply nth_error_In in En.
      rewrite Forall_forall in Ci. specialize (Ci _ En). unfold counts in Ci. rewrite Forall_forall in Ci. apply Ci. eapply local_in; eauto. }
    assert (Ga : exists v', get_var a (Some (S i)) fz = Some v' /\ frozen v' <> 0%N /\ val v' = arr).
    { unfold fz. rewrite get_refreeze, Gv. cbn [fst snd]. rewrite Nat.eqb_refl, same_refl. cbn [andb]. eexists. split; [reflexivity|]. cbn. split; [|exact V].
      unfold bnd in Fv. rewrite N.mod_small; lia. }
    assert (Pb2 : Pb true true (bnd true (pred r)) (parse (pred r))) by (apply parse_ok; intros _; lia).
    assert (Ps := iterate_passes true (bnd true (pred r)) (parse (pred r)) b x (S i) a arr (S k) 0 (with_stack fz s) s1 Pb2 ltac:(discriminate) (conj Fb Fs) Cf Ga Hi).
    cbn [skipn] in Ps. rewrite firstn_all2 in Ps by (rewrite (elements_len _ _ Al); lia).
    exists (with_stack fz s), s1. split; [reflexivity|]. split; [reflexivity|]. split.
    { cbn [stack with_stack]. apply view_sees. eapply view_trans; [apply view_refreeze|apply View0]. }
    split; [exact Ps|]. split; [reflexivity|]. split; [reflexivity|].
    cbn [stack pop with_stack]. apply view_sees.
    assert (It := iterate_ok true false 255 (parse (pred r)) b [(x, (S i, a))] (S k) (S k) 0 (with_stack fz s) (parse_ok false (pred r) ltac:(discriminate) true) ltac:(discriminate) ltac:(discriminate)).
    rewrite Hi in It. destruct It as [It _]; [|discriminate|].
    { cbn [stack with_stack]. unfold fz. rewrite refreeze_eq. apply upd_nth_all; [constructor; [constructor|exact C255]|]. intros f. apply rf_counts_any. }
    cbn [stack with_stack] in It. unfold fz in It. rewrite refreeze_eq in It. cbn [fst upd_nth] in It.
    inversion It as [|f0 f1 t0 t1 K0 K1 E0 E1]. subst f0 t0. destruct K0 as [K0 _]. cbn in K0. assert (Z : vars f1 = []) by (now inversion K0). clear K0.
    cbn [fold_left snd]. rewrite refreeze_eq. cbn [fst snd upd_nth tl].
    eapply view_trans; [exact (view_refreeze 255 (i, a) t1)|]. intros n. unfold old_value. cbn [get_var lookup]. unfold local. rewrite Z. cbn [find].
    destruct (lookup n t1) as [[j u]|]; reflexivity.
Qed.
Print Assumptions C38_foreach.

(** For instance, it can print them. *)
Theorem C38_foreach_prints : forall r s s' x a arr, S r <= 126 -> proper (stack s) -> calm (S r) (stack s) -> four_all s -> sees (stack s) a arr ->
  parse (S r) [SForEach [(NPlain x, (false, NPlain a))] [SPrint false (NPlain x)]] s = Good s' ->
  stack s' = stack s /\ out s' = out s ++ map (Printed x) (elements_of arr).
Proof.
  intros r s s' x a arr Hr P Cm Fs Sa H. split.
  - eapply C38_scope_restores; [exact P| |right; right; left; eauto|exact H]. reflexivity.
  - destruct (C38_foreach r s s' x a arr [SPrint false (NPlain x)] Hr P Cm eq_refl Fs Sa H) as [s0 [s1 [O0 [_ [_ [Ps [O1 _]]]]]]]. rewrite O1, <- O0. clear -Ps.
    induction Ps as [s|e es s s1 s2 E Ps IH]; [now rewrite app_nil_r|]. rewrite IH. cbn [out pop with_stack map].
    assert (X : out s1 = out s ++ [Printed x e]).
    { destruct (pred r) as [|q]; [discriminate|]. rewrite parse_one in E. cbn [step var_name bind] in E. rewrite lookup_fresh in E.
      cbn [stack with_stack lookup] in E. unfold local in E. cbn [find vars vname] in E. rewrite same_refl in E. cbn in E. injection E as <-. reflexivity. }
    rewrite X, <- app_assoc. reflexivity.
Qed.
Print Assumptions C38_foreach_prints.

(** A program with shadowing, an outer assignment, a loop and a function that calls itself until the depth limit. *)
Definition sample : list stmt :=
  [SSet false (NPlain (L "X")) Assign (RText (L "a"));
   SSet false (NPlain (L "A")) Assign (RArray [EText (L "1"); EText (L "$X$")]);
   SScope [SSet false (NPlain (L "X")) Plus (RText (L "b")); SPrint false (NPlain (L "X")); SSet true (NPlain (L "A")) Plus (RText (L "2"))];
   SPrint false (NPlain (L "X"));
   SForEach [(NPlain (L "I"), (false, NPlain (L "A")))] [SPrint false (NPlain (L "I"))];
   SSet false (NPlain (L "S")) Assign (RStruct [SSet false (NPlain (L "M")) Assign (RInt 7)]);
   SScope [SUsing false (NPlain (L "S")); SPrint false (NPlain (L "M"))]].
Example C38_case : exists s, run sample = Good s /\ four sample = true /\ proper (stack s) /\ calm 126 (stack s) /\ four_all s /\
  sees (stack s) (L "A") (VStrs [L "1"; L "a"; L "2"]) /\ unknown (stack s) (L "M") /\
  out s = [Printed (L "X") (VStr (L "ab")); Printed (L "X") (VStr (L "a")); Printed (L "I") (VStr (L "1")); Printed (L "I") (VStr (L "a"));
           Printed (L "I") (VStr (L "2")); Printed (L "M") (VInt 7)].
Proof.
  eexists. split; [vm_compute; reflexivity|]. split; [reflexivity|]. split; [|split; [|split; [|split; [|split; [|reflexivity]]]]].
  - apply proper_good. split; [repeat constructor; cbn; lia|]. split; [constructor|exact I].
  - apply calm_counts. repeat constructor; cbn; lia.
  - intros f ps b [].
  - apply sees_lookup. vm_compute. eauto.
  - apply unknown_lookup. vm_compute. reflexivity.
Qed.
Example C38_recursion : run [SFunction (L "f") [] [SCall (L "f") []]; SCall (L "f") []] = Fail 1035.
Proof. vm_compute. reflexivity. Qed.

(** Proofs about the parser of conditions. *)
From Coq Require Import List Bool ZArith Ascii NArith Lia.
From Verif Require Import M_Path M_Cond S_Cond.
Import ListNotations.

Lemma scmp_order a b : scmp a b = string_order a b.
Proof. revert b. induction a as [|x a IH]; intros [|y b]; try reflexivity. Qed.

Lemma order_eq a : forall b, string_order a b = Eq <-> a = b.
Proof.
  induction a as [|x a IH]; intros [|y b]; cbn; try (split; [discriminate|discriminate]); [tauto|].
  destruct (N.compare_spec (N_of_ascii x) (N_of_ascii y)) as [E|E|E].
  - rewrite IH. assert (x = y) by (rewrite <- (ascii_N_embedding x), <- (ascii_N_embedding y), E; reflexivity).
    subst. split; [intros ->; auto|intros H; injection H; auto].
  - split; [discriminate|intros H; injection H as -> _; lia].
  - split; [discriminate|intros H; injection H as -> _; lia].
Qed.

Lemma seq_iff a b : seq_ a b = true <-> a = b.
Proof. unfold seq_. rewrite scmp_order, <- (order_eq a b). destruct (string_order a b); split; congruence. Qed.

Lemma found_member s l : found_in s l = member s l.
Proof.
  unfold found_in, member. destruct (in_dec (list_eq_dec ascii_dec) s l) as [H|H].
  - apply existsb_exists. exists s. split; [exact H|apply seq_iff; reflexivity].
  - apply not_true_is_false. intros E. apply existsb_exists in E as [x [H1 H2]]. apply seq_iff in H2. subst. contradiction.
Qed.
Lemma meets_eq a b : existsb (fun s => found_in s b) a = meets a b.
Proof. unfold meets. induction a as [|x a IH]; cbn; [reflexivity|]. rewrite found_member, IH. reflexivity. Qed.

Definition bop_of (r : relation) : bop :=
  match r with Equal => BEq | NotEqual => BNe | Less => BLt | LessOrEqual => BLe | Greater => BGt | GreaterOrEqual => BGe end.
Definition lop_of (o : logical) : bop := match o with LEqual => BEq | LNotEqual => BNe | LAnd => BAnd | LOr => BOr end.

Lemma cmp_ints_spec r a b : cmp_ints (bop_of r) a b = Some (holds r (Z.compare a b)).
Proof.
  destruct r; cbn; f_equal; unfold Z.ltb, Z.eqb, Z.leb;
    destruct (Z.compare_spec a b) as [E|E|E];
    try (destruct (Z.eqb_spec a b)); try lia;
    repeat match goal with |- context[(?x ?= ?y)%Z] => destruct (Z.compare_spec x y); try lia end; try reflexivity;
    fold (Z.eqb a b); destruct (Z.eqb_spec a b); try lia; reflexivity.
Qed.
Lemma cmp_strs_spec r a b : cmp_strs (bop_of r) a b = Some (holds r (string_order a b)).
Proof. destruct r; cbn; unfold seq_; rewrite scmp_order; destruct (string_order a b); reflexivity. Qed.
Lemma cmp_bools_spec o a b : cmp_bools (lop_of o) a b = Some (apply o a b).
Proof. destruct o, a, b; reflexivity. Qed.

Lemma parse_op_rel r ok l : ok (bop_of r) = true -> parse_op ok (show_relation r :: l) = Some (bop_of r, l).
Proof. intros H. destruct r; cbn in *; rewrite H; reflexivity. Qed.
Lemma parse_op_log o l : parse_op bool_ops (show_logical o :: l) = Some (lop_of o, l).
Proof. destruct o; reflexivity. Qed.

Section Env.
Variable env : str -> option value.

Lemma bool_of_eq t : as_bool env t = bool_of env t.
Proof. destruct t; cbn; try reflexivity. Qed.
Lemma int_of_eq t : as_int env t = int_of env t.
Proof. destruct t; cbn; try reflexivity. Qed.
Lemma str_of_eq t : as_str env t = str_of env t.
Proof. destruct t; cbn; try reflexivity. Qed.
Lemma set_of_eq t : as_arr env t = set_of env t.
Proof. destruct t; cbn; try reflexivity. Qed.

(** ** Every condition is given its meaning. *)
Scheme cond_ind' := Induction for condition Sort Prop
  with part_ind' := Induction for part Sort Prop
  with tail_ind' := Induction for tail Sort Prop.
Combined Scheme cond_mut from cond_ind', part_ind', tail_ind'.

Definition stop (rest : list token) (ends : bool) : Prop := rest = [] \/ (ends = true /\ exists r, rest = TRP :: r).
Lemma stop_end rest ends : stop rest ends -> is_end rest ends = true.
Proof. intros [->|[-> [r ->]]]; reflexivity. Qed.
Lemma stop_true rest ends : stop rest ends -> stop rest true.
Proof. intros [->|[_ H]]; [left; reflexivity|right; auto]. Qed.

Lemma forward :
  (forall c b, meaning env c = Some b -> exists n0, forall n rest ends, (n0 <= n)%nat -> stop rest ends ->
     pexp env n (show c ++ rest) ends = Some (b, rest)) /\
  (forall p b, meaning_part env p = Some b -> exists n0, forall n rest, (n0 <= n)%nat ->
     poperand env n (show_part p ++ rest) = Some (b, rest) /\
     forall ends, pexp env (S n) (show_part p ++ rest) ends = ploop env n b rest (match p with Brackets _ => true | _ => ends end)) /\
  (forall m a b, meaning_tail env a m = Some b -> exists n0, forall n rest ends, (n0 <= n)%nat -> stop rest ends ->
     ploop env n a (show_tail m ++ rest) ends = Some (b, rest)).
Proof.
  apply cond_mut.
  - (* chain *) intros p IHp m IHm b H. cbn [meaning] in H. destruct (meaning_part env p) as [a|] eqn:Ea; [|discriminate].
    destruct (IHp a eq_refl) as [n1 H1]. destruct (IHm a b H) as [n2 H2].
    exists (S (Nat.max n1 n2)). intros n rest ends Hn Hs. destruct n as [|n]; [lia|].
    cbn [show]. rewrite <- app_assoc. destruct (H1 n (show_tail m ++ rest) ltac:(lia)) as [_ H3]. rewrite H3.
    apply H2; [lia|]. destruct p; try exact Hs. eapply stop_true, Hs.
  - (* numbers *) intros a r b0 b H. cbn [meaning] in H.
    destruct (int_of env a) as [x|] eqn:Ea; [|discriminate]. destruct (int_of env b0) as [y|] eqn:Eb; [|discriminate].
    injection H as <-. exists 1%nat. intros n rest ends Hn Hs. destruct n as [|n]; [lia|]. cbn [show app].
    assert (Q : parse_int env x (show_relation r :: b0 :: rest) = Some (holds r (x ?= y)%Z, rest)).
    { unfold parse_int. rewrite parse_op_rel by (destruct r; reflexivity). rewrite int_of_eq, Eb, cmp_ints_spec. reflexivity. }
    destruct a; cbn in Ea; try discriminate; cbn [pexp operand].
    + injection Ea as ->. rewrite Q, (stop_end _ _ Hs). reflexivity.
    + destruct (env s) as [[]|]; try discriminate. injection Ea as ->. rewrite Q, (stop_end _ _ Hs). reflexivity.
  - (* strings *) intros a r b0 b H. cbn [meaning] in H.
    destruct (str_of env a) as [x|] eqn:Ea; [|discriminate]. destruct (str_of env b0) as [y|] eqn:Eb; [|discriminate].
    injection H as <-. exists 1%nat. intros n rest ends Hn Hs. destruct n as [|n]; [lia|]. cbn [show app].
    assert (Q : parse_str env x (show_relation r :: b0 :: rest) = Some (holds r (string_order x y), rest)).
    { unfold parse_str. rewrite parse_op_rel by (destruct r; reflexivity).
      destruct b0; cbn in Eb; try discriminate; cbn [as_str operand].
      - injection Eb as ->. destruct r; cbn [bop_of]; unfold as_str; cbn [operand];
          match goal with |- context[cmp_strs ?o x y] => match o with BEq => rewrite (cmp_strs_spec Equal) | BNe => rewrite (cmp_strs_spec NotEqual)
            | BLt => rewrite (cmp_strs_spec Less) | BLe => rewrite (cmp_strs_spec LessOrEqual) | BGt => rewrite (cmp_strs_spec Greater) | BGe => rewrite (cmp_strs_spec GreaterOrEqual) end end; reflexivity.
      - unfold as_str. cbn [operand]. destruct (env s) as [[]|]; try discriminate. injection Eb as ->. destruct r; cbn [bop_of];
          match goal with |- context[cmp_strs ?o x y] => match o with BEq => rewrite (cmp_strs_spec Equal) | BNe => rewrite (cmp_strs_spec NotEqual)
            | BLt => rewrite (cmp_strs_spec Less) | BLe => rewrite (cmp_strs_spec LessOrEqual) | BGt => rewrite (cmp_strs_spec Greater) | BGe => rewrite (cmp_strs_spec GreaterOrEqual) end end; reflexivity. }
    destruct a; cbn in Ea; try discriminate; cbn [pexp operand].
    + injection Ea as ->. rewrite Q, (stop_end _ _ Hs). reflexivity.
    + destruct (env s) as [[]|]; try discriminate. injection Ea as ->. rewrite Q, (stop_end _ _ Hs). reflexivity.
  - (* string in *) intros a neg b0 b H. cbn [meaning] in H.
    destruct (str_of env a) as [x|] eqn:Ea; [|discriminate]. destruct (set_of env b0) as [y|] eqn:Eb; [|discriminate].
    injection H as <-. exists 1%nat. intros n rest ends Hn Hs. destruct n as [|n]; [lia|]. cbn [show app].
    assert (Q : parse_str env x ((show_in neg ++ [b0]) ++ rest) = Some (xorb neg (member x y), rest)).
    { destruct b0; cbn in Eb; try discriminate. destruct (env s) as [[]|] eqn:Es; try discriminate. injection Eb as ->.
      destruct neg; cbn [show_in app parse_str parse_op str_ops as_arr operand]; unfold parse_str, parse_op, str_ops, as_arr; cbn [operand]; rewrite Es, found_member;
        destruct (member x y); reflexivity. }
    destruct a; cbn in Ea; try discriminate; cbn [pexp operand].
    + injection Ea as ->. rewrite Q, (stop_end _ _ Hs). reflexivity.
    + destruct (env s) as [[]|]; try discriminate. injection Ea as ->. rewrite Q, (stop_end _ _ Hs). reflexivity.
  - (* set in *) intros a neg b0 b H. cbn [meaning] in H.
    destruct (set_of env a) as [x|] eqn:Ea; [|discriminate]. destruct (set_of env b0) as [y|] eqn:Eb; [|discriminate].
    injection H as <-. exists 1%nat. intros n rest ends Hn Hs. destruct n as [|n]; [lia|]. cbn [show app].
    assert (Q : parse_arr env x ((show_in neg ++ [b0]) ++ rest) = Some (xorb neg (meets x y), rest)).
    { destruct neg; cbn [show_in app]; unfold parse_arr, parse_op; rewrite set_of_eq, Eb, meets_eq; destruct (meets x y); reflexivity. }
    destruct a; cbn in Ea; try discriminate; cbn [pexp operand].
    destruct (env s) as [[]|]; try discriminate. injection Ea as ->. rewrite Q, (stop_end _ _ Hs). reflexivity.
  - (* plain *) intros t b H. cbn [meaning_part] in H. exists 1%nat. intros n rest Hn. destruct n as [|n]; [lia|].
    destruct t; cbn in H; try discriminate.
    + injection H as ->. split; [reflexivity|intros; reflexivity].
    + split; [cbn [show_part app poperand]; rewrite bool_of_eq; cbn [bool_of]; rewrite H; reflexivity|].
      intros ends. cbn [show_part app]. remember (S n) as n' eqn:En. cbn [pexp operand]. destruct (env s) as [[]|]; try discriminate. injection H as ->. reflexivity.
  - (* not *) intros p IH b H. cbn [meaning_part] in H. destruct (meaning_part env p) as [a|]; [|discriminate]. injection H as <-.
    destruct (IH a eq_refl) as [n0 H0]. exists (S n0). intros n rest Hn. destruct n as [|n]; [lia|].
    split.
    + destruct (H0 n rest ltac:(lia)) as [H1 _]. cbn [show_part app poperand]. rewrite H1. reflexivity.
    + intros ends. destruct (H0 (S n) rest ltac:(lia)) as [H1 _]. cbn [show_part app]. remember (S n) as n' eqn:En. cbn [pexp]. rewrite H1. reflexivity.
  - (* brackets *) intros c IH b H. cbn [meaning_part] in H. destruct (IH b H) as [n0 H0]. exists (S (S n0)). intros n rest Hn.
    assert (Q : forall k, (S n0 <= k)%nat -> psub env k (show_part (Brackets c) ++ rest) = Some (b, rest)).
    { intros k Hk. destruct k as [|k]; [lia|]. cbn [show_part app psub].
      rewrite <- app_assoc. cbn [app]. rewrite H0; [reflexivity|lia|]. right. split; [reflexivity|]. eexists; reflexivity. }
    split.
    + destruct n as [|n]; [lia|]. specialize (Q n ltac:(lia)). cbn [show_part app] in *. cbn [poperand]. exact Q.
    + intros ends. specialize (Q n ltac:(lia)). cbn [show_part app] in *. cbn [pexp]. rewrite Q. reflexivity.
  - (* done *) intros a b H. injection H as <-. exists 1%nat. intros n rest ends Hn Hs. destruct n; [lia|]. cbn [show_tail app ploop].
    rewrite (stop_end _ _ Hs). reflexivity.
  - (* then *) intros o p IHp m IHm a b H. cbn [meaning_tail] in H. destruct (meaning_part env p) as [c|] eqn:Ec; [|discriminate].
    destruct (IHp c eq_refl) as [n1 H1]. destruct (IHm _ _ H) as [n2 H2]. exists (S (Nat.max n1 n2)).
    intros n rest ends Hn Hs. destruct n as [|n]; [lia|]. cbn [show_tail app ploop].
    replace (is_end _ ends) with false by (destruct o, ends; reflexivity).
    rewrite parse_op_log, <- app_assoc. destruct (H1 n (show_tail m ++ rest) ltac:(lia)) as [H3 _]. rewrite H3, cmp_bools_spec.
    apply H2; [lia|exact Hs].
Qed.

(** ** Enough fuel. *)
Lemma parse_op_len ok l o r : parse_op ok l = Some (o, r) -> (length r < length l)%nat.
Proof.
  unfold parse_op. intros H.
  repeat match type of H with
  | (match (match ?x with _ => _ end) with _ => _ end) = _ => destruct x; try discriminate
  end;
  destruct (ok _); try discriminate; injection H as <- <-; cbn [length]; lia.
Qed.
Lemma parse_int_len a l b r : parse_int env a l = Some (b, r) -> (length r < length l)%nat.
Proof.
  unfold parse_int. destruct (parse_op int_ops l) as [[o [|t u]]|] eqn:E; try discriminate.
  apply parse_op_len in E. destruct (as_int env t); [|discriminate]. destruct (cmp_ints _ _ _); [|discriminate].
  intros H. injection H as <- <-. cbn in E. lia.
Qed.
Lemma parse_str_len a l b r : parse_str env a l = Some (b, r) -> (length r < length l)%nat.
Proof.
  unfold parse_str. destruct (parse_op str_ops l) as [[o [|t u]]|] eqn:E; try discriminate.
  apply parse_op_len in E. cbn in E. intros H.
  destruct t; try discriminate; destruct o; try discriminate;
  repeat match type of H with (match ?x with _ => _ end) = _ => destruct x; try discriminate end;
  injection H as <- <-; lia.
Qed.
Lemma parse_arr_len a l b r : parse_arr env a l = Some (b, r) -> (length r < length l)%nat.
Proof.
  unfold parse_arr. destruct (parse_op (fun _ => true) l) as [[o [|t u]]|] eqn:E; try discriminate.
  - destruct o; discriminate.
  - apply parse_op_len in E. cbn in E. destruct o; try discriminate; destruct (as_arr env t); try discriminate; intros H; injection H as <- <-; lia.
  Qed.

Lemma consumes n :
  (forall l ends b u, pexp env n l ends = Some (b, u) -> (length u < length l)%nat) /\
  (forall l b u, poperand env n l = Some (b, u) -> (length u < length l)%nat) /\
  (forall a l ends b u, ploop env n a l ends = Some (b, u) -> (length u <= length l)%nat) /\
  (forall l b u, psub env n l = Some (b, u) -> (length u < length l)%nat).
Proof.
  induction n as [|n (I1 & I2 & I3 & I4)]; [repeat split; discriminate|].
  repeat split.
  - intros [|t l] ends b u H; [discriminate|]. cbn [pexp] in H.
    assert (Q : forall v, match (match v with VInt z => parse_int env z l | VStr s => parse_str env s l | VArr a => parse_arr env a l | _ => None end) with
                  | Some (b, u) => if is_end u ends then Some (b, u) else None | None => None end = Some (b, u) -> (length u < length (t :: l))%nat).
    { intros v K. destruct (match v with VInt z => _ | _ => _ end) as [[b' u']|] eqn:E; [|discriminate].
      destruct (is_end u' ends); [|discriminate]. injection K as <- <-. cbn [length].
      destruct v; try discriminate; [apply parse_int_len in E|apply parse_str_len in E|apply parse_arr_len in E]; lia. }
    assert (Q2 : match operand env t with None => None | Some (VBool b) => ploop env n b l ends | Some v =>
         match (match v with VInt z => parse_int env z l | VStr s => parse_str env s l | VArr a => parse_arr env a l | _ => None end) with
                  | Some (b, u) => if is_end u ends then Some (b, u) else None | None => None end end = Some (b, u) -> (length u < length (t :: l))%nat).
    { destruct (operand env t) as [v|]; [|discriminate]. destruct v as [b'|z|s|a|].
      - intros K. apply I3 in K. cbn [length]. lia.
      - apply (Q (VInt z)).
      - apply (Q (VStr s)).
      - apply (Q (VArr a)).
      - discriminate. }
    destruct t; try discriminate; try (apply Q2; exact H); clear Q Q2.
    + destruct o; try discriminate. destruct (poperand env n l) as [[b' u']|] eqn:E; [|discriminate]. apply I2 in E. apply I3 in H. cbn. lia.
    + destruct (psub env n (TLP :: l)) as [[b' u']|] eqn:E; [|discriminate]. apply I4 in E. apply I3 in H. lia.
    + destruct (psub env n (TRP :: l)) as [[b' u']|] eqn:E; [|discriminate]. apply I4 in E. apply I3 in H. lia.
  - intros [|t l] b u H; [discriminate|]. cbn [poperand] in H. destruct t; try discriminate.
    + destruct (as_bool env _); [|discriminate]. injection H as <- <-. cbn. lia.
    + destruct (as_bool env _); [|discriminate]. injection H as <- <-. cbn. lia.
    + destruct o; try discriminate. destruct (poperand env n l) as [[b' u']|] eqn:E; [|discriminate]. apply I2 in E. injection H as <- <-. cbn. lia.
    + apply I4 in H. exact H.
    + apply I4 in H. exact H.
  - intros a l ends b u H. cbn [ploop] in H. destruct (is_end l ends); [injection H as <- <-; lia|].
    destruct (parse_op bool_ops l) as [[o r]|] eqn:E; [|discriminate]. apply parse_op_len in E.
    destruct (poperand env n r) as [[c u']|] eqn:E2; [|discriminate]. apply I2 in E2. destruct (cmp_bools o a c); [|discriminate]. apply I3 in H. lia.
  - intros [|t l] b u H; [discriminate|]. cbn [psub] in H. destruct (pexp env n l true) as [[b' [|t' u']]|] eqn:E; try discriminate.
    apply I1 in E. destruct (is_rp t'); [|discriminate]. injection H as <- <-. cbn in *. lia.
Qed.

Lemma stable n : forall m, (n <= m)%nat ->
  (forall l ends, (3 * length l + 3 <= n)%nat -> pexp env n l ends = pexp env m l ends) /\
  (forall l, (3 * length l + 2 <= n)%nat -> poperand env n l = poperand env m l) /\
  (forall a l ends, (3 * length l + 2 <= n)%nat -> ploop env n a l ends = ploop env m a l ends) /\
  (forall l, (3 * length l + 1 <= n)%nat -> psub env n l = psub env m l).
Proof.
  induction n as [|n IH]; intros m Hm; [repeat split; intros; lia|].
  destruct m as [|m]; [lia|]. destruct (IH m ltac:(lia)) as (I1 & I2 & I3 & I4). clear IH.
  destruct (consumes m) as (_ & C2 & _ & C4).
  repeat split.
  - intros [|t l] ends Hl; [reflexivity|]. cbn [length] in Hl. cbn [pexp].
    destruct t; try reflexivity; try (destruct (operand env _) as [v|]; [|reflexivity]; destruct v; try reflexivity; apply I3; lia).
    + destruct o; try reflexivity. rewrite I2 by lia. destruct (poperand env m l) as [[b u]|] eqn:E; [|reflexivity]. apply C2 in E. apply I3; lia.
    + rewrite I4 by (cbn; lia). destruct (psub env m (TLP :: l)) as [[b u]|] eqn:E; [|reflexivity]. apply C4 in E. cbn in E. apply I3; lia.
    + rewrite I4 by (cbn; lia). destruct (psub env m (TRP :: l)) as [[b u]|] eqn:E; [|reflexivity]. apply C4 in E. cbn in E. apply I3; lia.
  - intros [|t l] Hl; [reflexivity|]. cbn [length] in Hl. cbn [poperand]. destruct t; try reflexivity.
    + destruct o; try reflexivity. rewrite I2 by lia. reflexivity.
    + apply I4. cbn; lia.
    + apply I4. cbn; lia.
  - intros a l ends Hl. cbn [ploop]. destruct (is_end l ends); [reflexivity|].
    destruct (parse_op bool_ops l) as [[o r]|] eqn:E; [|reflexivity]. apply parse_op_len in E. rewrite I2 by lia.
    destruct (poperand env m r) as [[c u]|] eqn:E2; [|reflexivity]. apply C2 in E2. destruct (cmp_bools o a c); [|reflexivity]. apply I3; lia.
  - intros [|t l] Hl; [reflexivity|]. cbn [length] in Hl. cbn [psub]. rewrite I1 by lia. reflexivity.
Qed.

Lemma parse_stable l n : (fuel l <= n)%nat -> pexp env n l false = pexp env (fuel l) l false.
Proof. intros H. symmetry. apply (stable (fuel l) n H). unfold fuel. lia. Qed.

Lemma parse_show c b : meaning env c = Some b -> parse env (show c) = Some b.
Proof.
  intros H. destruct forward as [F _]. destruct (F c b H) as [n0 H0].
  unfold parse. rewrite <- (parse_stable (show c) (Nat.max n0 (fuel (show c))) ltac:(lia)).
  specialize (H0 (Nat.max n0 (fuel (show c))) [] false ltac:(lia) ltac:(left; reflexivity)). rewrite app_nil_r in H0. rewrite H0. reflexivity.
Qed.

(** ** Nothing else is accepted. *)
Definition one (t : token) : Z := match t with TLP => 1 | TRP => -1 | _ => 0 end.
Fixpoint bal (l : list token) : Z := match l with [] => 0 | t :: r => one t + bal r end.
Lemma bal_app a b : bal (a ++ b) = (bal a + bal b)%Z.
Proof. induction a as [|t a IH]; cbn [bal app]; [reflexivity|]. rewrite IH. lia. Qed.

Definition quiet (l : list token) : Prop := forall t, In t l -> ~ looks_like_bracket t.
Lemma quiet_app a b : quiet (a ++ b) -> quiet a /\ quiet b.
Proof. intros H. split; intros t Ht; apply H, in_or_app; auto. Qed.
Lemma quiet_tl t l : quiet (t :: l) -> quiet l.
Proof. intros H x Hx. apply H. right. exact Hx. Qed.
Lemma quiet_rp t : ~ looks_like_bracket t -> is_rp t = true -> t = TRP.
Proof. destruct t; cbn; try discriminate; [|reflexivity]. intros H E. exfalso. apply H. eexists. split; [reflexivity|]. apply Z.eqb_eq. exact E. Qed.

Definition ended (u : list token) : Prop := u = [] \/ exists r, u = TRP :: r.
Lemma is_end_ended u ends : quiet u -> is_end u ends = true -> ended u.
Proof.
  intros Hq. destruct u as [|t u]; [left; reflexivity|]. cbn. intros H. apply andb_prop in H as [_ H].
  right. exists u. f_equal. apply quiet_rp; [|exact H]. apply Hq. left. reflexivity.
Qed.

Lemma parse_op_rel_inv ok l o r : parse_op ok l = Some (o, r) -> ok o = true /\
  match o with BIn => l = TIn :: r | BNotIn => l = TNotKw :: TIn :: r | BEq => l = TOp OEq :: r | BNe => l = TOp ONe :: r | BLt => l = TOp OLt :: r
  | BLe => l = TOp OLe :: r | BGt => l = TOp OGt :: r | BGe => l = TOp OGe :: r | BAnd => l = TOp OAnd :: r | BOr => l = TOp OOr :: r end.
Proof.
  unfold parse_op. intros H.
  repeat match type of H with
  | (match (match ?x with _ => _ end) with _ => _ end) = _ => destruct x; try discriminate
  end;
  match type of H with (if ok ?x then _ else _) = _ => destruct (ok x) eqn:E; try discriminate; injection H as <- <-; auto end.
Qed.

Lemma parse_int_inv t a l b u : int_of env t = Some a -> parse_int env a l = Some (b, u) ->
  exists c, t :: l = show c ++ u /\ bal (show c) = bal [t] /\ meaning env c = Some b.
Proof.
  intros Ht. unfold parse_int. destruct (parse_op int_ops l) as [[o [|s r]]|] eqn:E; try discriminate.
  apply parse_op_rel_inv in E as [E1 E2]. rewrite int_of_eq. destruct (int_of env s) as [y|] eqn:Es; [|discriminate].
  assert (Hs : one s = 0%Z) by (destruct s; cbn in Es; try discriminate; reflexivity).
  destruct (cmp_ints o a y) as [x|] eqn:Ec; [|discriminate]. intros H. injection H as <- <-.
  assert (G : forall r', o = bop_of r' -> exists c, t :: l = show c ++ r /\ bal (show c) = bal [t] /\ meaning env c = Some x).
  { intros r' ->. exists (Numbers t r' s). cbn [show meaning app bal]. rewrite Ht, Es. rewrite cmp_ints_spec in Ec. injection Ec as <-.
    split; [destruct r'; cbn in E2; subst l; reflexivity|]. split; [rewrite Hs; destruct r'; cbn; lia|reflexivity]. }
  destruct o; try discriminate; [apply (G Equal)|apply (G NotEqual)|apply (G Less)|apply (G LessOrEqual)|apply (G Greater)|apply (G GreaterOrEqual)]; reflexivity.
Qed.

Lemma parse_str_inv t a l b u : str_of env t = Some a -> parse_str env a l = Some (b, u) ->
  exists c, t :: l = show c ++ u /\ bal (show c) = bal [t] /\ meaning env c = Some b.
Proof.
  intros Ht. unfold parse_str. destruct (parse_op str_ops l) as [[o [|s r]]|] eqn:E; try discriminate.
  apply parse_op_rel_inv in E as [E1 E2]. intros H.
  assert (Hs : one s = 0%Z) by (destruct s; try discriminate; reflexivity).
  assert (H' : match o with BIn => match as_arr env s with Some b => Some (found_in a b, r) | None => None end
          | BNotIn => match as_arr env s with Some b => Some (negb (found_in a b), r) | None => None end
          | _ => match as_str env s with Some b => match cmp_strs o a b with Some x => Some (x, r) | None => None end | None => None end end = Some (b, u))
    by (destruct s; try discriminate; exact H). clear H.
  assert (G : forall r', o = bop_of r' -> match as_str env s with Some b => match cmp_strs o a b with Some x => Some (x, r) | None => None end | None => None end = Some (b, u) ->
            exists c, t :: l = show c ++ u /\ bal (show c) = bal [t] /\ meaning env c = Some b).
  { intros r' -> K. rewrite str_of_eq in K. destruct (str_of env s) as [y|] eqn:Es; [|discriminate]. rewrite cmp_strs_spec in K. injection K as <- <-.
    exists (Strings t r' s). cbn [show meaning app bal]. rewrite Ht, Es.
    split; [destruct r'; cbn in E2; subst l; reflexivity|]. split; [rewrite Hs; destruct r'; cbn; lia|reflexivity]. }
  destruct o; try discriminate; [| |apply (G Equal); auto|apply (G NotEqual); auto|apply (G Less); auto|apply (G LessOrEqual); auto|apply (G Greater); auto|apply (G GreaterOrEqual); auto].
  - rewrite set_of_eq in H'. destruct (set_of env s) as [y|] eqn:Es; [|discriminate]. injection H' as <- <-.
    exists (StringIn t false s). cbn [show show_in meaning app bal xorb]. rewrite Ht, Es, found_member. subst l. split; [reflexivity|]. split; [rewrite Hs; cbn; lia|]. destruct (member a y); reflexivity.
  - rewrite set_of_eq in H'. destruct (set_of env s) as [y|] eqn:Es; [|discriminate]. injection H' as <- <-.
    exists (StringIn t true s). cbn [show show_in meaning app bal xorb]. rewrite Ht, Es, found_member. subst l. split; [reflexivity|]. split; [rewrite Hs; cbn; lia|]. destruct (member a y); reflexivity.
Qed.

Lemma parse_arr_inv t a l b u : set_of env t = Some a -> parse_arr env a l = Some (b, u) ->
  exists c, t :: l = show c ++ u /\ bal (show c) = bal [t] /\ meaning env c = Some b.
Proof.
  intros Ht. unfold parse_arr. destruct (parse_op (fun _ => true) l) as [[o [|s r]]|] eqn:E; try discriminate.
  { destruct o; discriminate. }
  apply parse_op_rel_inv in E as [E1 E2]. rewrite set_of_eq. intros H.
  destruct o; try discriminate; (destruct (set_of env s) as [y|] eqn:Es; [|discriminate]; assert (Hs : one s = 0%Z) by (destruct s; cbn in Es; try discriminate; reflexivity);
    rewrite meets_eq in H; injection H as <- <-).
  - exists (SetIn t false s). cbn [show show_in meaning app bal xorb]. rewrite Ht, Es. subst l. split; [reflexivity|]. split; [rewrite Hs; cbn; lia|]. destruct (meets a y); reflexivity.
  - exists (SetIn t true s). cbn [show show_in meaning app bal xorb]. rewrite Ht, Es. subst l. split; [reflexivity|]. split; [rewrite Hs; cbn; lia|]. destruct (meets a y); reflexivity.
Qed.

(** What was read is a condition with the value given, or it closed a bracket it did not open. *)
Lemma backward n :
  (forall l ends b u, quiet l -> pexp env n l ends = Some (b, u) -> ended u /\ exists c, l = c ++ u /\
     ((bal c < 0)%Z \/ (bal c = 0%Z /\ exists e, c = show e /\ meaning env e = Some b))) /\
  (forall l b u, quiet l -> poperand env n l = Some (b, u) -> exists c, l = c ++ u /\
     ((bal c < 0)%Z \/ (bal c = 0%Z /\ exists p, c = show_part p /\ meaning_part env p = Some b))) /\
  (forall a l ends b u, quiet l -> ploop env n a l ends = Some (b, u) -> ended u /\ exists c, l = c ++ u /\
     ((bal c < 0)%Z \/ (bal c = 0%Z /\ exists m, c = show_tail m /\ meaning_tail env a m = Some b))) /\
  (forall l b u, quiet l -> (exists r, l = TLP :: r \/ l = TRP :: r) -> psub env n l = Some (b, u) -> exists c, l = c ++ u /\
     ((bal c < 0)%Z \/ (bal c = 0%Z /\ exists e, c = show_part (Brackets e) /\ meaning env e = Some b))).
Proof.
  induction n as [|n (I1 & I2 & I3 & I4)]; [repeat split; discriminate|].
  assert (CH : forall c1 c2 b0 b, ((bal c1 < 0)%Z \/ (bal c1 = 0%Z /\ exists p, c1 = show_part p /\ meaning_part env p = Some b0)) ->
     ((bal c2 < 0)%Z \/ (bal c2 = 0%Z /\ exists m, c2 = show_tail m /\ meaning_tail env b0 m = Some b)) ->
     ((bal (c1 ++ c2) < 0)%Z \/ (bal (c1 ++ c2) = 0%Z /\ exists e, c1 ++ c2 = show e /\ meaning env e = Some b))).
  { intros c1 c2 b0 b [H1|[H1 [p [-> P]]]] [H2|[H2 [m [-> M]]]]; rewrite bal_app; [left; lia|left; lia|left; lia|].
    right. split; [lia|]. exists (Chain p m). cbn [show meaning]. rewrite P. auto. }
  split; [|split; [|split]].
  - intros [|t l] ends b u Hq H; [discriminate|]. cbn [pexp] in H. pose proof (quiet_tl _ _ Hq) as Hq'.
    assert (Q : forall v, match (match v with VInt z => parse_int env z l | VStr s => parse_str env s l | VArr a => parse_arr env a l | _ => None end) with
                  | Some (b, u) => if is_end u ends then Some (b, u) else None | None => None end = Some (b, u) ->
              operand env t = Some v -> one t = 0%Z -> ended u /\ exists c, t :: l = c ++ u /\
     ((bal c < 0)%Z \/ (bal c = 0%Z /\ exists e, c = show e /\ meaning env e = Some b))).
    { intros v K Hv Ho. destruct (match v with VInt z => _ | _ => _ end) as [[b' u']|] eqn:E; [|discriminate].
      destruct (is_end u' ends) eqn:Ee; [|discriminate]. injection K as <- <-.
      assert (R : exists c, t :: l = show c ++ u' /\ bal (show c) = bal [t] /\ meaning env c = Some b').
      { destruct v; try discriminate.
        - apply (parse_int_inv t z); [|exact E]. rewrite <- int_of_eq. unfold as_int. rewrite Hv. reflexivity.
        - apply (parse_str_inv t s); [|exact E]. rewrite <- str_of_eq. unfold as_str. rewrite Hv. reflexivity.
        - apply (parse_arr_inv t l0); [|exact E]. rewrite <- set_of_eq. unfold as_arr. rewrite Hv. reflexivity. }
      destruct R as [c (R1 & R2 & R3)]. split.
      - apply (is_end_ended u' ends); [|exact Ee]. rewrite R1 in Hq. apply quiet_app in Hq. tauto.
      - exists (show c). split; [exact R1|]. right. split; [rewrite R2; cbn; lia|]. exists c. auto. }
    assert (Q2 : match operand env t with None => None | Some (VBool b) => ploop env n b l ends | Some v =>
         match (match v with VInt z => parse_int env z l | VStr s => parse_str env s l | VArr a => parse_arr env a l | _ => None end) with
                  | Some (b, u) => if is_end u ends then Some (b, u) else None | None => None end end = Some (b, u) ->
          one t = 0%Z -> ended u /\ exists c, t :: l = c ++ u /\
     ((bal c < 0)%Z \/ (bal c = 0%Z /\ exists e, c = show e /\ meaning env e = Some b))).
    { intros K Ho. destruct (operand env t) as [v|] eqn:Eo; [|discriminate]. destruct v as [b'|z|s|a|].
      - destruct (I3 _ _ _ _ _ Hq' K) as [Hu [c [-> Hc]]]. split; [exact Hu|]. exists ([t] ++ c). split; [reflexivity|].
        apply (CH [t] c b' b); [|exact Hc]. right. split; [cbn; lia|]. exists (Plain t). split; [reflexivity|]. cbn [meaning_part].
        rewrite <- bool_of_eq. unfold as_bool. rewrite Eo. reflexivity.
      - apply (Q (VInt z)); auto.
      - apply (Q (VStr s)); auto.
      - apply (Q (VArr a)); auto.
      - discriminate. }
    destruct t; try discriminate; try (apply Q2; [exact H|reflexivity]); clear Q Q2.
    + destruct o; try discriminate. destruct (poperand env n l) as [[b' u']|] eqn:E; [|discriminate].
      destruct (I2 _ _ _ Hq' E) as [c1 [-> H1]]. apply quiet_app in Hq' as [_ Hq2]. destruct (I3 _ _ _ _ _ Hq2 H) as [Hu [c2 [-> H2]]].
      split; [exact Hu|]. exists ((TOp ONot :: c1) ++ c2). split; [cbn; rewrite app_assoc; reflexivity|].
      apply (CH _ c2 (negb b') b); [|exact H2]. destruct H1 as [H1|[H1 [p [-> P]]]]; [left; cbn; exact H1|right; split; [cbn; exact H1|]].
      exists (Not p). cbn [show_part meaning_part]. rewrite P. auto.
    + destruct (psub env n (TLP :: l)) as [[b' u']|] eqn:E; [|discriminate].
      destruct (I4 _ _ _ Hq ltac:(eauto) E) as [c1 [Hl H1]]. rewrite Hl in Hq. apply quiet_app in Hq as [_ Hq2]. destruct (I3 _ _ _ _ _ Hq2 H) as [Hu [c2 [-> H2]]].
      split; [exact Hu|]. exists (c1 ++ c2). split; [rewrite Hl, app_assoc; reflexivity|].
      apply (CH _ c2 b' b); [|exact H2]. destruct H1 as [H1|[H1 [e [-> P]]]]; [left; exact H1|right; split; [exact H1|]]. exists (Brackets e). auto.
    + destruct (psub env n (TRP :: l)) as [[b' u']|] eqn:E; [|discriminate].
      destruct (I4 _ _ _ Hq ltac:(eauto) E) as [c1 [Hl H1]]. rewrite Hl in Hq. apply quiet_app in Hq as [_ Hq2]. destruct (I3 _ _ _ _ _ Hq2 H) as [Hu [c2 [-> H2]]].
      split; [exact Hu|]. exists (c1 ++ c2). split; [rewrite Hl, app_assoc; reflexivity|].
      apply (CH _ c2 b' b); [|exact H2]. destruct H1 as [H1|[H1 [e [-> P]]]]; [left; exact H1|right; split; [exact H1|]]. exists (Brackets e). auto.
  - intros [|t l] b u Hq H; [discriminate|]. cbn [poperand] in H. pose proof (quiet_tl _ _ Hq) as Hq'.
    assert (PL : match as_bool env t with Some b => Some (b, l) | None => None end = Some (b, u) -> one t = 0%Z -> exists c, t :: l = c ++ u /\
     ((bal c < 0)%Z \/ (bal c = 0%Z /\ exists p, c = show_part p /\ meaning_part env p = Some b))).
    { intros K Ho. destruct (as_bool env t) as [b'|] eqn:E; [|discriminate]. injection K as <- <-. exists [t]. split; [reflexivity|]. right.
      split; [cbn; lia|]. exists (Plain t). split; [reflexivity|]. cbn [meaning_part]. rewrite <- bool_of_eq. exact E. }
    assert (BR : psub env n (t :: l) = Some (b, u) -> (exists r, t :: l = TLP :: r \/ t :: l = TRP :: r) -> exists c, t :: l = c ++ u /\
     ((bal c < 0)%Z \/ (bal c = 0%Z /\ exists p, c = show_part p /\ meaning_part env p = Some b))).
    { intros K R. destruct (I4 _ _ _ Hq R K) as [c [Hl [H1|[H1 [e [-> P]]]]]]; eexists; (split; [exact Hl|]); [left; exact H1|right; split; [exact H1|]]. exists (Brackets e). auto. }
    destruct t; try discriminate; try (apply PL; [exact H|reflexivity]); try (apply BR; [exact H|eauto]).
    destruct o; try discriminate. destruct (poperand env n l) as [[b' u']|] eqn:E; [|discriminate]. injection H as <- <-.
    destruct (I2 _ _ _ Hq' E) as [c1 [-> H1]]. exists (TOp ONot :: c1). split; [reflexivity|].
    destruct H1 as [H1|[H1 [p [-> P]]]]; [left; cbn; exact H1|right; split; [cbn; exact H1|]]. exists (Not p). cbn [show_part meaning_part]. rewrite P. auto.
  - intros a l ends b u Hq H. cbn [ploop] in H. destruct (is_end l ends) eqn:Ee.
    { injection H as <- <-. split; [eapply is_end_ended; eauto|]. exists []. split; [reflexivity|]. right. split; [reflexivity|]. exists Done. auto. }
    destruct (parse_op bool_ops l) as [[o r]|] eqn:E; [|discriminate].
    destruct (poperand env n r) as [[c u']|] eqn:E2; [|discriminate]. destruct (cmp_bools o a c) as [x|] eqn:Ec; [|discriminate].
    apply parse_op_rel_inv in E as [E1 E3].
    assert (G : forall lo, o = lop_of lo -> l = show_logical lo :: r -> ended u /\ exists c, l = c ++ u /\
     ((bal c < 0)%Z \/ (bal c = 0%Z /\ exists m, c = show_tail m /\ meaning_tail env a m = Some b))).
    { intros lo -> ->. pose proof (quiet_tl _ _ Hq) as Hq'. rewrite cmp_bools_spec in Ec. injection Ec as <-.
      destruct (I2 _ _ _ Hq' E2) as [c1 [-> H1]]. apply quiet_app in Hq' as [_ Hq2]. destruct (I3 _ _ _ _ _ Hq2 H) as [Hu [c2 [-> H2]]].
      split; [exact Hu|]. exists (show_logical lo :: c1 ++ c2). split; [cbn; rewrite app_assoc; reflexivity|].
      assert (Hlo : one (show_logical lo) = 0%Z) by (destruct lo; reflexivity).
      destruct H1 as [H1|[H1 [p [-> P]]]]; destruct H2 as [H2|[H2 [m [-> M]]]]; cbn [bal]; rewrite bal_app, Hlo; [left; lia|left; lia|left; lia|].
      right. split; [lia|]. exists (Then lo p m). cbn [show_tail meaning_tail]. rewrite P. auto. }
    destruct o; try discriminate; [apply (G LEqual)|apply (G LNotEqual)|apply (G LAnd)|apply (G LOr)]; auto.
  - intros l b u Hq [r R] H. assert (Hl : exists t, l = t :: r /\ (t = TLP \/ t = TRP)) by (destruct R; eauto). destruct Hl as [t [-> Ht]].
    cbn [psub] in H. destruct (pexp env n r true) as [[b' [|t' u']]|] eqn:E; try discriminate.
    pose proof (quiet_tl _ _ Hq) as Hq'. destruct (is_rp t') eqn:Er; [|discriminate]. injection H as <- <-.
    destruct (I1 _ _ _ _ Hq' E) as [_ [c [-> Hc]]].
    assert (t' = TRP). { apply quiet_rp; [|exact Er]. apply Hq'. apply in_or_app. right. left. reflexivity. } subst t'.
    exists (t :: c ++ [TRP]). split; [cbn; rewrite <- app_assoc; reflexivity|].
    cbn [bal]. rewrite bal_app. cbn [bal one].
    destruct Hc as [Hc|[Hc [e [-> P]]]]; [left; destruct Ht as [->| ->]; cbn [one]; lia|].
    destruct Ht as [->| ->]; [right|left; cbn [one]; lia]. split; [cbn [one]; lia|]. exists e. auto.
Qed.

Lemma balanced_bal l : forall d, balanced_from d l -> forall a b, l = a ++ b -> (0 <= Z.of_nat d + bal a)%Z.
Proof.
  induction l as [|t l IH]; intros d H a b E.
  - destruct a; [cbn; lia|discriminate].
  - destruct a as [|x a]; [cbn; lia|]. injection E as <- ->. cbn [bal].
    destruct t; cbn [balanced_from one] in *;
      try (specialize (IH d H a b eq_refl); lia).
    + specialize (IH _ H a b eq_refl). lia.
    + destruct d as [|d]; [contradiction|]. specialize (IH _ H a b eq_refl). lia.
Qed.

Lemma parse_only l b : quiet l -> balanced_from 0 l -> parse env l = Some b -> exists c, show c = l /\ meaning env c = Some b.
Proof.
  intros Hq Hb H. unfold parse in H. destruct (pexp env (fuel l) l false) as [[b' u]|] eqn:E; [|discriminate]. injection H as ->.
  destruct (backward (fuel l)) as [B _]. destruct (B _ _ _ _ Hq E) as [Hu [c [Hl Hc]]].
  pose proof (balanced_bal l 0 Hb c u Hl) as P1. destruct Hc as [Hc|[Hc [e [-> P]]]]; [lia|].
  destruct Hu as [->|[r ->]].
  - exists e. rewrite app_nil_r in Hl. auto.
  - pose proof (balanced_bal l 0 Hb (show e ++ [TRP]) r) as P2. rewrite bal_app in P2. cbn [bal one] in P2.
    rewrite <- app_assoc in P2. specialize (P2 Hl). lia.
Qed.
End Env.

Lemma braced_balanced l : forall d h u, braced d l = Some (h, u) -> balanced_from d h.
Proof.
  induction l as [|t l IH]; intros d h u H; [discriminate|]. cbn [braced] in H.
  destruct t; cbn [braced] in H; try (destruct (braced d l) as [[h' u']|] eqn:E; [|discriminate]; injection H as <- <-; cbn; eapply IH; eauto).
  - destruct (braced (S d) l) as [[h' u']|] eqn:E; [|discriminate]. injection H as <- <-. cbn. eapply IH; eauto.
  - destruct d as [|d]; [injection H as <- <-; exact I|].
    destruct (braced d l) as [[h' u']|] eqn:E; [|discriminate]. injection H as <- <-. cbn. eapply IH; eauto.
Qed.

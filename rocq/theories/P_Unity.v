(** Proofs about unity file generation. *)
From Coq Require Import List Arith ZArith NArith Bool Ascii String Permutation Lia.
From Coq.Floats Require Import SpecFloat.
From Coq.Numbers Require Import DecimalString DecimalNat.
From Verif Require Import M_Path M_Names P_Names M_Sort S_Sort M_Array M_Unity S_Unity.
Import ListNotations.

(** ** Lexicographic order *)
Fixpoint lexb (x y : list Z) : bool :=
  match x, y with
  | _, [] => false
  | [], _ :: _ => true
  | a :: x', b :: y' => if (a =? b)%Z then lexb x' y' else (a <? b)%Z
  end.
Lemma lexb_irrefl x : lexb x x = false.
Proof. induction x as [|a x IH]; cbn; [reflexivity|]. rewrite Z.eqb_refl. exact IH. Qed.
Lemma lexb_trans : forall x y z, lexb x y = true -> lexb y z = true -> lexb x z = true.
Proof.
  induction x as [|a x IH]; intros [|b y] [|c z]; cbn; try discriminate; auto.
  destruct (Z.eqb_spec a b) as [E|E], (Z.eqb_spec b c) as [F|F].
  - subst. rewrite Z.eqb_refl. apply IH.
  - subst. intros _ H. destruct (Z.eqb_spec b c); [contradiction|exact H].
  - subst. intros H _. destruct (Z.eqb_spec a c); [contradiction|exact H].
  - intros H1 H2. apply Z.ltb_lt in H1, H2. destruct (Z.eqb_spec a c); [lia|]. apply Z.ltb_lt. lia.
Qed.
Lemma lexb_total : forall x y, lexb x y = false -> lexb y x = false -> x = y.
Proof.
  induction x as [|a x IH]; intros [|b y]; cbn; try discriminate; auto.
  rewrite (Z.eqb_sym b a). destruct (Z.eqb_spec a b) as [E|E].
  - subst. intros H1 H2. f_equal. apply IH; assumption.
  - intros H1 H2. apply Z.ltb_ge in H1, H2. lia.
Qed.
Lemma lexb_app_same p x y : lexb (p ++ x) (p ++ y) = lexb x y.
Proof. induction p as [|a p IH]; cbn; [reflexivity|]. rewrite Z.eqb_refl. exact IH. Qed.

Section Order.
Variable p : plat.
Variable signed : bool.
Notation cv := (char_val signed).
Definition v (s : str) : list Z := map (fun c => cv (lower_char c)) s.

Lemma cv_range c : (-128 <= cv c)%Z.
Proof. unfold char_val. pose proof (Zle_0_nat (nat_of_ascii c)). destruct signed; cbn [andb]; [destruct (Z.leb_spec 128 (Z.of_nat (nat_of_ascii c))); lia|lia]. Qed.
Lemma cv_inj a b : cv a = cv b -> a = b.
Proof.
  intros H. rewrite <- (ascii_nat_embedding a), <- (ascii_nat_embedding b). f_equal. unfold char_val in H.
  pose proof (nat_ascii_bounded a). pose proof (nat_ascii_bounded b).
  destruct signed; cbn [andb] in H; [destruct (Z.leb_spec 128 (Z.of_nat (nat_of_ascii a))), (Z.leb_spec 128 (Z.of_nat (nat_of_ascii b))); lia|lia].
Qed.

Lemma lower_not_nul c : c <> nul -> lower_char c <> nul.
Proof. intros H K. apply H. apply lower_nul. exact K. Qed.

(** StrNCmpI on strings without NUL, within their lengths. *)
Lemma ncmp_spec : forall num a b, ~ In nul a -> ~ In nul b -> num <= List.length a -> num <= List.length b ->
  (ncmp_i signed a b num = 0%Z /\ firstn num (v a) = firstn num (v b)) \/
  (ncmp_i signed a b num <> 0%Z /\ exists q x y ra rb, v a = q ++ x :: ra /\ v b = q ++ y :: rb /\ List.length q < num /\ x <> y /\ (ncmp_i signed a b num <? 0)%Z = (x <? y)%Z).
Proof.
  induction num as [|num IH]; intros a b Na Nb La Lb; [left; split; reflexivity|].
  destruct a as [|c a]; [cbn in La; lia|]. destruct b as [|d b]; [cbn in Lb; lia|]. cbn [ncmp_i hd tl].
  destruct (Ascii.eqb_spec (lower_char c) (lower_char d)) as [E|E].
  - assert (Nc : lower_char c <> nul) by (apply lower_not_nul; intros ->; apply Na; left; reflexivity).
    destruct (Ascii.eqb_spec (lower_char c) nul) as [K|_]; [contradiction|].
    destruct (IH a b) as [[H1 H2]|(H1 & q & x & y & ra & rb & Ea & Eb & Lq & Nxy & S)];
      try (intros K; first [apply Na; right; exact K|apply Nb; right; exact K]); try (cbn in La, Lb; lia).
    + left. split; [exact H1|]. cbn [v map firstn]. rewrite E. f_equal. exact H2.
    + right. split; [exact H1|]. exists (cv (lower_char c) :: q), x, y, ra, rb. cbn [v map app]. fold (v a). fold (v b). rewrite Ea, Eb, E. cbn [app List.length]. repeat split; auto. lia.
  - right. assert (Nz : cv (lower_char c) <> cv (lower_char d)) by (intros K; apply E; apply cv_inj; exact K).
    split; [lia|]. exists [], (cv (lower_char c)), (cv (lower_char d)), (v a), (v b). cbn. repeat split; auto; [lia|].
    destruct (Z.ltb_spec (cv (lower_char c) - cv (lower_char d)) 0), (Z.ltb_spec (cv (lower_char c)) (cv (lower_char d))); lia.
Qed.

Lemma v_length s : List.length (v s) = List.length s.
Proof. apply map_length. Qed.
Lemma v_skipn n s : v (skipn n s) = skipn n (v s).
Proof. unfold v. revert s. induction n as [|n IH]; intros [|c s]; cbn; auto. Qed.
Lemma v_firstn n s : v (firstn n s) = firstn n (v s).
Proof. unfold v. revert s. induction n as [|n IH]; intros [|c s]; cbn; auto. f_equal. apply IH. Qed.
Lemma not_in_skipn n s : ~ In nul s -> ~ In nul (skipn n s).
Proof. intros H K. apply H. rewrite <- (firstn_skipn n s). apply in_or_app. auto. Qed.

Lemma last_slash_from_le s : forall i best, best <= i -> last_slash_from p i s best <= i + List.length s.
Proof.
  induction s as [|c s IH]; intros i best H; cbn [last_slash_from List.length]; [lia|].
  replace (i + S (List.length s)) with (S i + List.length s) by lia. apply IH. destruct (Ascii.eqb c (native p)); lia.
Qed.
Lemma last_slash_from_lt s : forall i best, last_slash_from p i s best = best \/ last_slash_from p i s best < i + List.length s.
Proof.
  induction s as [|c s IH]; intros i best; cbn [last_slash_from List.length]; [auto|].
  destruct (Ascii.eqb c (native p)).
  - right. destruct (IH (S i) i) as [H|H]; lia.
  - destruct (IH (S i) best) as [H|H]; [auto|right; lia].
Qed.
Lemma last_slash_lt s : 0 < last_slash p s -> last_slash p s < List.length s.
Proof. unfold last_slash. intros H. destruct (last_slash_from_lt s 0 0) as [K|K]; lia. Qed.
Lemma last_slash_le s : last_slash p s <= List.length s.
Proof. unfold last_slash. apply (last_slash_from_le s 0 0). lia. Qed.

Lemma lex_differ q x y ra rb : x <> y -> lexb (q ++ x :: ra) (q ++ y :: rb) = (x <? y)%Z.
Proof. intros H. rewrite lexb_app_same. cbn. destruct (Z.eqb_spec x y); [contradiction|reflexivity]. Qed.

Lemma by_file_name_lex a b : ~ In nul a -> ~ In nul b ->
  by_file_name p signed a b = lexb (v (skipn (last_slash p a) a)) (v (skipn (last_slash p b) b)).
Proof.
  intros Na Nb. unfold by_file_name. pose proof (last_slash_le a) as La. pose proof (last_slash_le b) as Lb.
  set (x := skipn (last_slash p a) a). set (y := skipn (last_slash p b) b).
  assert (Lx : List.length x = List.length a - last_slash p a) by apply skipn_length.
  assert (Ly : List.length y = List.length b - last_slash p b) by apply skipn_length.
  rewrite <- Lx, <- Ly.
  destruct (ncmp_spec (Nat.min (List.length x) (List.length y)) x y) as [[H1 H2]|(H1 & q & c & d & ra & rb & Ea & Eb & Lq & Ncd & Sg)];
    try (apply not_in_skipn; assumption); try lia.
  - rewrite H1. cbn [Z.eqb]. 
    destruct (Nat.lt_trichotomy (List.length x) (List.length y)) as [C|[C|C]].
    + rewrite Nat.min_l in H2 by lia. rewrite <- (v_length x) in H2 at 1. rewrite firstn_all in H2.
      destruct (Nat.eqb_spec (List.length x) (List.length y)); [lia|]. destruct (Nat.ltb_spec (List.length x) (List.length y)); [|lia].
      rewrite <- (firstn_skipn (List.length x) (v y)). rewrite <- H2. rewrite <- (app_nil_r (v x)) at 1. rewrite lexb_app_same.
      destruct (skipn (List.length x) (v y)) eqn:E; [|reflexivity]. apply (f_equal (@List.length _)) in E. rewrite skipn_length, v_length in E. cbn in E. lia.
    + destruct (Nat.eqb_spec (List.length x) (List.length y)); [|lia]. rewrite C, Nat.min_id in H2.
      rewrite <- (v_length y) in H2 at 2. rewrite firstn_all in H2. rewrite <- C, <- (v_length x), firstn_all in H2. rewrite H2, lexb_irrefl. reflexivity.
    + rewrite Nat.min_r in H2 by lia. rewrite <- (v_length y) in H2 at 2. rewrite firstn_all in H2.
      destruct (Nat.eqb_spec (List.length x) (List.length y)); [lia|]. destruct (Nat.ltb_spec (List.length x) (List.length y)); [lia|].
      rewrite <- (firstn_skipn (List.length y) (v x)). rewrite H2. rewrite <- (app_nil_r (v y)) at 2. rewrite lexb_app_same.
      destruct (skipn (List.length y) (v x)); reflexivity.
  - destruct (Z.eqb_spec (ncmp_i signed x y (Nat.min (List.length x) (List.length y))) 0) as [K|_]; [contradiction|].
    rewrite Sg, Ea, Eb, lex_differ by exact Ncd. reflexivity.
Qed.

(** The key by which names are ordered. *)
Definition key (a : str) : list Z :=
  let s := last_slash p a in
  if 0 <? s then 1%Z :: v (firstn (S s) a) ++ (-1000)%Z :: v (skipn s a) else 0%Z :: v (skipn s a).

Lemma name_lt_key a b : ~ In nul a -> ~ In nul b -> name_lt p signed a b = lexb (key a) (key b).
Proof.
  intros Na Nb. unfold name_lt, key. rewrite (by_file_name_lex a b Na Nb).
  pose proof (last_slash_lt a) as La. pose proof (last_slash_lt b) as Lb.
  set (sa := last_slash p a) in *. set (sb := last_slash p b) in *.
  destruct (Nat.ltb_spec 0 sa) as [Ha|Ha]; destruct (Nat.ltb_spec 0 sb) as [Hb|Hb]; destruct (Nat.eqb_spec sb 0) as [Zb|Zb]; try lia; try reflexivity.
  specialize (La Ha). specialize (Lb Hb). cbn [lexb Z.eqb]. replace (1 =? 1)%Z with true by reflexivity.
  destruct (ncmp_spec (S (Nat.min sa sb)) a b Na Nb) as [[H1 H2]|(H1 & q & c & d & ra & rb & Ea & Eb & Lq & Ncd & Sg)]; try lia.
  - rewrite H1. cbn [Z.eqb]. rewrite !v_firstn.
    destruct (Nat.lt_trichotomy sa sb) as [C|[C|C]].
    + rewrite Nat.min_l in H2 by lia. destruct (Nat.eqb_spec sa sb); [lia|]. destruct (Nat.ltb_spec sa sb); [|lia].
      assert (E : exists z r, firstn (S sb) (v b) = firstn (S sa) (v a) ++ z :: r /\ (-128 <= z)%Z).
      { rewrite H2. rewrite <- (firstn_skipn (S sa) (firstn (S sb) (v b))). rewrite firstn_firstn, Nat.min_l by lia.
        destruct (skipn (S sa) (firstn (S sb) (v b))) as [|z r] eqn:E.
        - apply (f_equal (@List.length _)) in E. rewrite skipn_length, firstn_length, v_length in E. cbn [List.length] in E. lia.
        - exists z, r. split; [reflexivity|].
          assert (I : In z (v b)).
          { rewrite <- (firstn_skipn (S sb) (v b)). apply in_or_app. left. rewrite <- (firstn_skipn (S sa) (firstn (S sb) (v b))). apply in_or_app. right. rewrite E. left. reflexivity. }
          unfold v in I. apply in_map_iff in I as (ch & <- & _). apply cv_range. }
      destruct E as (z & r & E & Hz). rewrite E, <- app_assoc, lexb_app_same. cbn [app lexb]. destruct (Z.eqb_spec (-1000) z); [lia|]. symmetry. apply Z.ltb_lt. lia.
    + destruct (Nat.eqb_spec sa sb); [|lia]. rewrite <- C in *. rewrite Nat.min_id in H2. rewrite H2, lexb_app_same. cbn [lexb]. reflexivity.
    + rewrite Nat.min_r in H2 by lia. destruct (Nat.eqb_spec sa sb); [lia|]. destruct (Nat.ltb_spec sa sb); [lia|].
      assert (E : exists z r, firstn (S sa) (v a) = firstn (S sb) (v b) ++ z :: r /\ (-128 <= z)%Z).
      { rewrite <- H2. rewrite <- (firstn_skipn (S sb) (firstn (S sa) (v a))). rewrite firstn_firstn, Nat.min_l by lia.
        destruct (skipn (S sb) (firstn (S sa) (v a))) as [|z r] eqn:E.
        - apply (f_equal (@List.length _)) in E. rewrite skipn_length, firstn_length, v_length in E. cbn [List.length] in E. lia.
        - exists z, r. split; [reflexivity|].
          assert (I : In z (v a)).
          { rewrite <- (firstn_skipn (S sa) (v a)). apply in_or_app. left. rewrite <- (firstn_skipn (S sb) (firstn (S sa) (v a))). apply in_or_app. right. rewrite E. left. reflexivity. }
          unfold v in I. apply in_map_iff in I as (ch & <- & _). apply cv_range. }
      destruct E as (z & r & E & Hz). rewrite E, <- app_assoc, lexb_app_same. cbn [app lexb]. destruct (Z.eqb_spec z (-1000)); [lia|]. symmetry. apply Z.ltb_ge. lia.
  - destruct (Z.eqb_spec (ncmp_i signed a b (S (Nat.min sa sb))) 0) as [K|_]; [contradiction|].
    rewrite Sg, !v_firstn, Ea, Eb.
    rewrite !firstn_app. rewrite (firstn_all2 (n := S sa) q), (firstn_all2 (n := S sb) q) by lia.
    destruct (S sa - List.length q) as [|k1] eqn:K1; [lia|]. destruct (S sb - List.length q) as [|k2] eqn:K2; [lia|].
    cbn [firstn]. rewrite <- !app_assoc. cbn [app]. rewrite lex_differ by exact Ncd. reflexivity.
Qed.

Lemma sentinel_split (x x' y y' : list Z) : (forall z, In z x -> (-128 <= z)%Z) -> (forall z, In z x' -> (-128 <= z)%Z) ->
  x ++ (-1000)%Z :: y = x' ++ (-1000)%Z :: y' -> x = x' /\ y = y'.
Proof.
  revert x'. induction x as [|a x IH]; intros [|b x'] H H' E; cbn in E.
  - injection E as ->. auto.
  - injection E as E _. specialize (H' b (or_introl eq_refl)). lia.
  - injection E as E _. specialize (H a (or_introl eq_refl)). lia.
  - injection E as <- E. destruct (IH x') as [-> ->]; auto; [intros z Hz; apply H; right; exact Hz|intros z Hz; apply H'; right; exact Hz].
Qed.
Lemma v_lower a b : v a = v b -> lower a = lower b.
Proof.
  unfold v, lower. revert b. induction a as [|c a IH]; intros [|d b] H; try discriminate; [reflexivity|]. cbn in *. injection H as H1 H2. apply cv_inj in H1. f_equal; auto.
Qed.
Lemma v_ge s z : In z (v s) -> (-128 <= z)%Z.
Proof. unfold v. intros I. apply in_map_iff in I as (c & <- & _). apply cv_range. Qed.

Lemma key_inj a b : key a = key b -> lower a = lower b.
Proof.
  unfold key. pose proof (last_slash_lt a) as La. pose proof (last_slash_lt b) as Lb.
  set (sa := last_slash p a) in *. set (sb := last_slash p b) in *.
  destruct (Nat.ltb_spec 0 sa) as [Ha|Ha]; destruct (Nat.ltb_spec 0 sb) as [Hb|Hb]; intros E; try discriminate.
  - apply (f_equal (@tl Z)) in E. cbn [tl] in E. apply sentinel_split in E as [E1 E2]; [|intros z; apply v_ge|intros z; apply v_ge].
    specialize (La Ha). specialize (Lb Hb). apply v_lower.
    rewrite <- (firstn_skipn sa a), <- (firstn_skipn sb b). unfold v. rewrite !map_app. fold (v (firstn sa a)) (v (skipn sa a)) (v (firstn sb b)) (v (skipn sb b)).
    rewrite E2. f_equal.
    assert (ES : sa = sb).
    { apply (f_equal (@List.length _)) in E1. rewrite !v_length, !firstn_length in E1. lia. }
    rewrite <- ES in *. rewrite !v_firstn in *.
    rewrite <- (Nat.min_l sa (S sa)) by lia. rewrite <- !firstn_firstn. rewrite E1. reflexivity.
  - injection E as E. replace sa with 0 in E by lia. replace sb with 0 in E by lia. cbn [skipn] in E. apply v_lower. exact E.
Qed.

Lemma name_lt_weak_on a b c : ~ In nul a -> ~ In nul b -> ~ In nul c ->
  name_lt p signed a a = false /\
  (name_lt p signed a b = true -> name_lt p signed b c = true -> name_lt p signed a c = true) /\
  (name_lt p signed a b = false -> name_lt p signed b a = false -> lower a = lower b).
Proof.
  intros Ha Hb Hc. rewrite !name_lt_key by assumption. split; [apply lexb_irrefl|]. split; [apply lexb_trans|].
  intros H1 H2. apply key_inj. apply lexb_total; assumption.
Qed.
End Order.

(** ** Sorting does not depend on the order of the input *)
Lemma ordered_tail {A} (lt : A -> A -> bool) x l : ordered lt (x :: l) -> ordered lt l.
Proof. intros O i j a b Hij Ha Hb. apply (O (S i) (S j)); [lia|exact Ha|exact Hb]. Qed.
Lemma ordered_head {A} (lt : A -> A -> bool) x l y : ordered lt (x :: l) -> In y l -> lt y x = false.
Proof. intros O I. apply In_nth_error in I as [j Hj]. apply (O 0 (S j)); [lia|reflexivity|exact Hj]. Qed.
Lemma ordered_unique {A} (lt : A -> A -> bool) : forall l1 l2, Permutation l1 l2 ->
  (forall x y, In x l1 -> In y l1 -> lt x y = false -> lt y x = false -> x = y) -> ordered lt l1 -> ordered lt l2 -> l1 = l2.
Proof.
  induction l1 as [|x l1 IH]; intros l2 P U O1 O2.
  - apply Permutation_nil in P. auto.
  - destruct l2 as [|y l2]; [apply Permutation_sym, Permutation_nil in P; discriminate|].
    assert (E : x = y).
    { assert (Ix : In x (y :: l2)) by (eapply Permutation_in; [exact P|left; reflexivity]).
      assert (Iy : In y (x :: l1)) by (eapply Permutation_in; [apply Permutation_sym; exact P|left; reflexivity]).
      destruct Ix as [->|Ix]; [reflexivity|]. destruct Iy as [->|Iy]; [reflexivity|].
      apply U; [left; reflexivity|right; exact Iy|apply (ordered_head lt y l2); assumption|apply (ordered_head lt x l1); assumption]. }
    subst y. f_equal. apply IH; [eapply Permutation_cons_inv; exact P| |apply (ordered_tail lt x); exact O1|apply (ordered_tail lt x); exact O2].
    intros a b Ha Hb. apply U; right; assumption.
Qed.

(** ** Forced isolation *)
Section Forced.
Variable p : plat.
Variable iso_names : list str.
Notation fo := (forced p iso_names).

Lemma filter_loop_spec : forall n files rd wr iso, rd + n = List.length files -> wr <= rd ->
  filter_loop p iso_names n files rd wr iso =
  Some (firstn wr files ++ filter (fun f => negb (fo f)) (skipn rd files), iso ++ filter fo (skipn rd files)).
Proof.
  induction n as [|n IH]; intros files rd wr iso Hn Hw; cbn [filter_loop].
  - rewrite skipn_all2 by lia. cbn [filter]. rewrite !app_nil_r. reflexivity.
  - destruct (get_lt files rd) as [f Ef]; [lia|]. rewrite Ef.
    assert (ES : skipn rd files = f :: skipn (S rd) files).
    { clear - Ef. unfold get in Ef. revert files Ef. induction rd as [|rd IH]; intros [|x l] E; cbn in E; try discriminate; [injection E as ->; reflexivity|]. cbn [skipn]. rewrite IH by exact E. reflexivity. }
    rewrite ES. cbn [filter]. destruct (fo f) eqn:Efo; cbn [negb].
    + rewrite IH by lia. rewrite <- app_assoc. reflexivity.
    + destruct (Nat.eqb_spec wr rd) as [E|E].
      * subst wr. rewrite IH by lia. do 2 f_equal.
        assert (EF : firstn (S rd) files = firstn rd files ++ [f]).
        { clear - Ef. unfold get in Ef. revert files Ef. induction rd as [|rd IH]; intros [|x l] E; cbn in E; try discriminate; [injection E as ->; reflexivity|].
          change (firstn (S (S rd)) (x :: l)) with (x :: firstn (S rd) l). rewrite IH by exact E. reflexivity. }
        rewrite EF, <- app_assoc. reflexivity.
      * destruct (set_lt files wr f) as [files' Es]; [lia|]. rewrite Es.
        pose proof (set_len _ _ _ _ Es) as Ln. rewrite IH by lia.
        assert (E1 : skipn (S rd) files' = skipn (S rd) files).
        { clear - Es Hw. revert rd wr files' Es Hw. induction files as [|x l IH]; intros rd wr files' Es Hw; [destruct wr; discriminate|].
          destruct wr as [|wr]; cbn in Es; [injection Es as <-; reflexivity|]. destruct (set l wr f) as [l'|] eqn:El; [|discriminate]. injection Es as <-.
          destruct rd as [|rd]; [lia|]. change (skipn (S (S rd)) (x :: l')) with (skipn (S rd) l'). rewrite (IH rd wr l' El) by lia. reflexivity. }
        assert (E2 : firstn (S wr) files' = firstn wr files ++ [f]).
        { clear - Es. revert wr files' Es. induction files as [|x l IH]; intros wr files' Es; [destruct wr; discriminate|].
          destruct wr as [|wr]; cbn in Es; [injection Es as <-; reflexivity|]. destruct (set l wr f) as [l'|] eqn:El; [|discriminate]. injection Es as <-.
          change (firstn (S (S wr)) (x :: l')) with (x :: firstn (S wr) l'). rewrite (IH wr l' El). reflexivity. }
        rewrite E1, E2, <- app_assoc. reflexivity.
Qed.
Lemma filter_force_spec files : filter_force_isolated p iso_names files = Some (filter (fun f => negb (fo f)) files, filter fo files).
Proof.
  unfold filter_force_isolated. destruct iso_names as [|a l] eqn:E.
  - do 2 f_equal.
    + induction files as [|f files IH]; [reflexivity|]. cbn [filter]. change (forced p [] f) with false. cbn [negb]. f_equal. exact IH.
    + induction files as [|f files IH]; [reflexivity|]. cbn [filter]. change (forced p [] f) with false. exact IH.
  - rewrite <- E. rewrite filter_loop_spec by lia. cbn [firstn skipn app]. reflexivity.
Qed.
End Forced.

Lemma partition_perm {A} (f : A -> bool) l : Permutation l (filter f l ++ filter (fun x => negb (f x)) l).
Proof.
  induction l as [|x l IH]; [constructor|]. cbn [filter]. destruct (f x); cbn [negb app].
  - constructor. exact IH.
  - etransitivity; [apply perm_skip, IH|]. apply Permutation_middle.
Qed.

(** ** Distribution *)
Lemma fill_split last : forall files rem t rest rem', fill last rem files = (t, rest, rem') -> files = t ++ rest /\ (last = true -> rest = []).
Proof.
  induction files as [|f files IH]; intros rem t rest rem' H; cbn [fill] in H.
  - destruct (positive_float rem || last) eqn:E; injection H as <- <- <-; auto.
  - destruct (positive_float rem || last) eqn:E.
    + destruct (fill last (fsub rem (of_int 1)) files) as [[t1 r1] rm1] eqn:E1. injection H as <- <- <-.
      destruct (IH _ _ _ _ E1) as [-> Hl]. auto.
    + injection H as <- <- <-. split; [reflexivity|]. intros ->. rewrite orb_true_r in E. discriminate.
Qed.
Lemma distribute_spec per : forall k rem files, 0 < k -> List.length (distribute per k rem files) = k /\ List.concat (distribute per k rem files) = files.
Proof.
  induction k as [|k IH]; intros rem files Hk; [lia|]. cbn [distribute].
  destruct (fill (k =? 0) (fadd rem per) files) as [[t rest] rem'] eqn:E. apply fill_split in E as [-> Hl]. cbn [List.length List.concat].
  destruct k as [|k].
  - rewrite Hl by reflexivity. cbn. rewrite !app_nil_r. auto.
  - destruct (IH rem' rest) as [L1 L2]; [lia|]. rewrite L1, L2. auto.
Qed.

(** ** Texts *)
Lemma lines_app a b : ~ In "010"%char a -> lines (a ++ "010"%char :: b) = a :: lines b.
Proof.
  induction a as [|c a IH]; intros H; cbn [app lines]; [reflexivity|].
  destruct (Ascii.eqb_spec c "010"%char) as [->|_]; [exfalso; apply H; left; reflexivity|].
  rewrite IH by (intros K; apply H; right; exact K). reflexivity.
Qed.
Lemma until_quote_app a b : ~ In "034"%char a -> until_quote (a ++ "034"%char :: b) = a.
Proof.
  induction a as [|c a IH]; intros H; cbn [app until_quote]; [reflexivity|].
  destruct (Ascii.eqb_spec c "034"%char) as [->|_]; [exfalso; apply H; left; reflexivity|].
  rewrite IH by (intros K; apply H; right; exact K). reflexivity.
Qed.
Lemma included_line n r : ~ In "034"%char n -> included (include_start ++ n ++ "034"%char :: r) = [n].
Proof.
  intros H. unfold included. replace (after include_start (include_start ++ n ++ "034"%char :: r)) with (Some (n ++ "034"%char :: r)) by reflexivity.
  rewrite until_quote_app by exact H. reflexivity.
Qed.

Lemma plain_forward n : plain n -> plain (to_forward n).
Proof.
  intros [H1 H2]. unfold plain, to_forward. split; intros K; apply in_map_iff in K as (c & E & I); destruct (Ascii.eqb c "092"%char); try discriminate; subst c; contradiction.
Qed.

Section Text.
Variable st : settings.
Notation sh f := (shown st (sname f)).

Lemma notin_app (c : ascii) a b : ~ In c a -> ~ In c b -> ~ In c (a ++ b).
Proof. intros H1 H2 K. apply in_app_or in K. tauto. Qed.

Lemma notin_cons (c x : ascii) a : c <> x -> ~ In c a -> ~ In c (x :: a).
Proof. intros H1 H2 [K|K]; [apply H1; symmetry; exact K|contradiction]. Qed.
Ltac ni := repeat first [assumption | apply notin_app | apply notin_cons; [discriminate|] | intros []].

Lemma file_text_lines all f r : plain (sh f) ->
  lines (file_text st all f ++ r) =
  (((if linux st || isolated_here st all f then L "//" else []) ++ L "#pragma message( " ++ quote :: to_forward (sh f) ++ quote :: L " )") ++ ["013"%char]) ::
  ((if isolated_here st all f then L "//" else []) ++ include_start ++ sh f ++ "034"%char :: ["013"%char]) :: ["013"%char] :: lines r.
Proof.
  intros H. pose proof (plain_forward _ H) as Hf. destruct H as [H1 H2], Hf as [F1 F2]. unfold file_text, crlf.
  set (iso := isolated_here st all f).
  set (A := (if linux st || iso then L "//" else []) ++ L "#pragma message( " ++ quote :: to_forward (sh f) ++ quote :: L " )").
  set (B := (if iso then L "//" else []) ++ include_start ++ sh f ++ "034"%char :: ["013"%char]).
  match goal with |- lines (?x ++ r) = _ => replace x with ((A ++ ["013"%char]) ++ "010"%char :: B ++ "010"%char :: ["013"%char] ++ ["010"%char]) end.
  2:{ unfold A, B. destruct iso; rewrite ?orb_true_r, ?orb_false_r; destruct (linux st); cbn; repeat (rewrite <- app_assoc; cbn); reflexivity. }
  rewrite <- app_assoc. cbn [app]. rewrite lines_app.
  2:{ unfold A. destruct (linux st || iso); unfold L, quote; cbn [list_ascii_of_string app]; ni. }
  f_equal. rewrite <- app_assoc. cbn [app]. rewrite lines_app.
  2:{ unfold B, include_start. destruct iso; unfold L, quote; cbn [list_ascii_of_string app]; ni. }
  f_equal.
Qed.

Definition pch_list : list str := match pch_name st with [] => [] | n => [n] end.

Lemma includes_files all : forall l r, (forall f, In f l -> plain (sh f)) ->
  flat_map included (lines (flat_map (file_text st all) l ++ r)) =
  map (fun f => sh f) (filter (fun f => negb (isolated_here st all f)) l) ++ flat_map included (lines r).
Proof.
  induction l as [|f l IH]; intros r H; [reflexivity|]. cbn [flat_map]. rewrite <- app_assoc, file_text_lines by (apply H; left; reflexivity).
  cbn [flat_map]. rewrite IH by (intros g Hg; apply H; right; exact Hg). cbn [filter].
  destruct (H f (or_introl eq_refl)) as [Q _].
  destruct (isolated_here st all f); cbn [negb]; rewrite ?orb_true_r, ?orb_false_r.
  - reflexivity.
  - rewrite app_nil_l, (included_line (sh f) ["013"%char] Q). destruct (linux st); reflexivity.
Qed.
Lemma mentions_files all : forall l r, (forall f, In f l -> plain (sh f)) ->
  flat_map mentioned (lines (flat_map (file_text st all) l ++ r)) = map (fun f => sh f) l ++ flat_map mentioned (lines r).
Proof.
  induction l as [|f l IH]; intros r H; [reflexivity|]. cbn [flat_map]. rewrite <- app_assoc, file_text_lines by (apply H; left; reflexivity).
  cbn [flat_map]. rewrite IH by (intros g Hg; apply H; right; exact Hg). cbn [map].
  destruct (H f (or_introl eq_refl)) as [Q _].
  assert (E1 : forall b : bool, mentioned (((if b then L "//" else []) ++ L "#pragma message( " ++ quote :: to_forward (sh f) ++ quote :: L " )") ++ ["013"%char]) = []) by (intros []; reflexivity).
  assert (E2 : forall b : bool, mentioned ((if b then L "//" else []) ++ include_start ++ sh f ++ "034"%char :: ["013"%char]) = [sh f]).
  { intros b. transitivity (included (include_start ++ sh f ++ "034"%char :: ["013"%char])); [destruct b; reflexivity|apply included_line; exact Q]. }
  rewrite E1, E2. reflexivity.
Qed.

Lemma text_lines all : (pch_name st <> [] -> plain (pch_name st)) -> (forall f, In f all -> plain (sh f)) ->
  includes (text st all) = pch_list ++ map (fun f => sh f) (filter (fun f => negb (isolated_here st all f)) all) /\
  mentions (text st all) = pch_list ++ map (fun f => sh f) all.
Proof.
  intros HP HF. unfold includes, mentions, text, pch_list, crlf.
  set (H0 := L "// Auto-generated Unity file - do not modify").
  assert (N0 : ~ In "010"%char (H0 ++ ["013"%char])) by (unfold H0, L; cbn [list_ascii_of_string app]; ni).
  assert (N1 : ~ In "010"%char ["013"%char]) by ni.
  assert (E : forall r, lines (H0 ++ ["013"%char; "010"%char] ++ ["013"%char; "010"%char] ++ r) = (H0 ++ ["013"%char]) :: ["013"%char] :: lines r).
  { intros r. replace (H0 ++ ["013"%char; "010"%char] ++ ["013"%char; "010"%char] ++ r) with ((H0 ++ ["013"%char]) ++ "010"%char :: ["013"%char] ++ "010"%char :: r)
      by (rewrite <- app_assoc; reflexivity).
    rewrite lines_app by exact N0. rewrite lines_app by exact N1. reflexivity. }
  rewrite E. cbn [flat_map].
  replace (included (H0 ++ ["013"%char])) with (@nil str) by reflexivity. replace (mentioned (H0 ++ ["013"%char])) with (@nil str) by reflexivity.
  replace (included ["013"%char]) with (@nil str) by reflexivity. replace (mentioned ["013"%char]) with (@nil str) by reflexivity. cbn [app].
  assert (T : flat_map included (lines ["013"%char; "010"%char]) = [] /\ flat_map mentioned (lines ["013"%char; "010"%char]) = []) by (split; reflexivity).
  destruct T as [T1 T2].
  destruct (pch_name st) as [|c n] eqn:EP.
  - cbn [app]. rewrite includes_files, mentions_files, T1, T2, !app_nil_r by exact HF. auto.
  - destruct (HP ltac:(discriminate)) as [Q1 Q2]. set (pn := c :: n) in *.
    match goal with |- context [lines (?x ++ ?y)] =>
      replace (x ++ y) with ((include_start ++ pn ++ "034"%char :: ["013"%char]) ++ "010"%char :: ["013"%char] ++ "010"%char :: y)
        by (unfold include_start, quote; repeat (rewrite <- app_assoc; cbn [app]); reflexivity) end.
    rewrite lines_app by (unfold include_start, L; cbn [list_ascii_of_string app]; ni).
    rewrite lines_app by exact N1. cbn [flat_map].
    rewrite (included_line pn ["013"%char] Q1).
    assert (EM : mentioned (include_start ++ pn ++ "034"%char :: ["013"%char]) = [pn]) by (transitivity (included (include_start ++ pn ++ "034"%char :: ["013"%char])); [reflexivity|apply included_line; exact Q1]).
    rewrite EM. replace (included ["013"%char]) with (@nil str) by reflexivity. replace (mentioned ["013"%char]) with (@nil str) by reflexivity. cbn [app].
    rewrite includes_files, mentions_files, T1, T2, !app_nil_r by exact HF. auto.
Qed.

(** ** Names of unity files *)
Lemma decimal_inj i j : decimal i = decimal j -> i = j.
Proof.
  unfold decimal, L. intros H. apply (f_equal string_of_list_ascii) in H. rewrite !string_of_list_ascii_of_string in H.
  apply (f_equal NilEmpty.uint_of_string) in H. rewrite !NilEmpty.usu in H. injection H as H. apply (f_equal Nat.of_uint) in H. rewrite !Unsigned.of_to in H. exact H.
Qed.
Lemma unity_name_inj i j : In "*"%char (output st) -> unity_name st i = unity_name st j -> i = j.
Proof.
  intros HI H. apply decimal_inj. unfold unity_name in H. revert HI H. generalize (output st). generalize (decimal i) (decimal j). intros u w s HI H.
  set (rep := fun u : str => fun c => if Ascii.eqb c "*"%char then u else [c]) in *.
  change (flat_map (rep u) s = flat_map (rep w) s) in H.
  assert (LE : forall s, exists k r, (In "*"%char s -> 0 < k) /\ forall u, List.length (flat_map (rep u) s) = k * List.length u + r).
  { clear. induction s as [|c s IH]; [exists 0, 0; split; [intros []|reflexivity]|]. destruct IH as (k & r & Hk & IH).
    assert (EL : forall u, List.length (flat_map (rep u) (c :: s)) = List.length (if Ascii.eqb c "*"%char then u else [c]) + (k * List.length u + r))
      by (intros u; rewrite <- IH, <- app_length; reflexivity).
    destruct (Ascii.eqb_spec c "*"%char) as [->|N].
    - exists (S k), r. split; [lia|]. intros u. rewrite EL. lia.
    - exists k, (S r). split; [intros [E|I]; [congruence|auto]|]. intros u. rewrite EL. cbn [List.length]. lia. }
  assert (LL : List.length u = List.length w).
  { destruct (LE s) as (k & r & Hk & E). specialize (Hk HI). apply (f_equal (@List.length _)) in H. rewrite !E in H. nia. }
  clear LE. induction s as [|c s IH]; [contradiction|]. 
  change ((if Ascii.eqb c "*"%char then u else [c]) ++ flat_map (rep u) s = (if Ascii.eqb c "*"%char then w else [c]) ++ flat_map (rep w) s) in H.
  destruct (Ascii.eqb_spec c "*"%char) as [->|N].
  - clear - LL H. revert w LL H. generalize (flat_map (rep u) s). intros a.
    assert (G : forall b w, List.length u = List.length w -> u ++ a = w ++ b -> u = w).
    { induction u as [|x u IH]; intros b [|y w] HL E; try discriminate; [reflexivity|]. injection E as <- E. injection HL as HL. f_equal. eapply IH; eauto. }
    intros w LL H. eapply G; eauto.
  - injection H as H. destruct HI as [E|HI]; [congruence|]. apply IH; assumption.
Qed.

Lemma written_names : forall parts i n t, In (n, t) (written (write_all st i parts)) -> exists k, i <= k /\ n = unity_name st k.
Proof.
  induction parts as [|all parts IH]; intros i n t H; cbn [write_all written] in H; [contradiction|].
  destruct H as [E|H]; [injection E as <- <-; exists i; auto|]. destruct (IH (S i) n t H) as (k & Hk & ->). exists k. split; [lia|reflexivity].
Qed.
Lemma written_nodup : In "*"%char (output st) -> forall parts i, NoDup (map fst (written (write_all st i parts))).
Proof.
  intros HS. induction parts as [|all parts IH]; intros i; cbn [write_all written map fst]; constructor; [|apply IH].
  intros K. apply in_map_iff in K as ((n & t) & E & I). cbn in E. subst n. apply written_names in I as (k & Hk & E). apply unity_name_inj in E; [lia|exact HS].
Qed.
Lemma content_in w n t : NoDup (map fst w) -> In (n, t) w -> content w n = Some t.
Proof.
  intros ND I. unfold content.
  assert (ND' : NoDup (map fst (rev w))) by (rewrite map_rev; apply NoDup_rev; exact ND).
  assert (I' : In (n, t) (rev w)) by (apply -> in_rev; exact I). clear ND I.
  induction (rev w) as [|[m u] l IH]; [contradiction|]. cbn [find fst]. cbn [map fst] in ND'. inversion ND' as [|? ? Nm ND2]; subst.
  destruct (list_eq_dec ascii_dec n m) as [->|N].
  - destruct I' as [E|I']; [injection E as ->; reflexivity|]. exfalso. apply Nm. apply in_map_iff. exists (m, t). auto.
  - destruct I' as [E|I']; [injection E as -> ->; contradiction|]. apply IH; assumption.
Qed.

Lemma filter_none {A} (f : A -> bool) l : List.length l = List.length (filter f l) -> filter (fun x => negb (f x)) l = [].
Proof.
  intros H. pose proof (Permutation_length (partition_perm f l)) as P. rewrite app_length in P.
  destruct (filter (fun x => negb (f x)) l); [reflexivity|]. cbn [List.length] in P. lia.
Qed.

Lemma Forall2_imp {A B} (R R' : A -> B -> Prop) a b : (forall x y, R x y -> R' x y) -> Forall2 R a b -> Forall2 R' a b.
Proof. intros H. induction 1; constructor; auto. Qed.
Lemma write_all_spec : (pch_name st <> [] -> plain (pch_name st)) -> forall parts i, (forall f, In f (List.concat parts) -> plain (sh f)) ->
  exists ls, Forall2 (fun n l => exists t, In (n, t) (written (write_all st i parts)) /\ includes t = pch_list ++ map (fun f => sh f) l /\ l <> []) (to_compile (write_all st i parts)) ls /\
    Permutation (List.concat parts) (on_their_own (write_all st i parts) ++ List.concat ls) /\
    (no_unity st = true -> ls = []).
Proof.
  intros HP. induction parts as [|all parts IH]; intros i HF.
  - exists []. cbn. auto.
  - cbn [List.concat] in HF. destruct (IH (S i) (fun f Hf => HF f (in_or_app _ _ _ (or_intror Hf)))) as (ls & F & P & Z).
    assert (HA : forall f, In f all -> plain (sh f)) by (intros f Hf; apply HF; apply in_or_app; auto).
    destruct (text_lines all HP HA) as [TI _].
    assert (F' : Forall2 (fun n l => exists t, In (n, t) (written (write_all st i (all :: parts))) /\ includes t = pch_list ++ map (fun f => sh f) l /\ l <> []) (to_compile (write_all st (S i) parts)) ls).
    { eapply Forall2_imp; [|exact F]. intros n l (t & I & R). exists t. split; [right; exact I|exact R]. }
    cbn [write_all to_compile on_their_own written] in *. unfold tracked, alone.
    destruct (no_unity st) eqn:EN.
    + rewrite andb_false_r. cbn [app]. exists ls. split; [exact F'|]. split; [|exact Z]. rewrite (filter_ext _ (fun _ => true)) by (intros; apply orb_true_r).
      replace (filter (fun _ => true) all) with all by (clear; induction all as [|x l IH]; cbn; [reflexivity|f_equal; exact IH]).
      cbn [List.concat]. rewrite <- app_assoc. apply Permutation_app_head. exact P.
    + rewrite andb_true_r. rewrite (filter_ext (fun f => isolated_here st all f || false) (isolated_here st all)) by (intros; apply orb_false_r).
      destruct (Nat.eqb_spec (List.length all) (List.length (filter (isolated_here st all) all))) as [E|E]; cbn [negb app].
      * exists ls. split; [exact F'|]. split; [|discriminate]. cbn [List.concat]. rewrite <- app_assoc. apply Permutation_app; [|exact P].
        etransitivity; [apply (partition_perm (isolated_here st all))|]. rewrite (filter_none _ _ E), app_nil_r. apply Permutation_refl.
      * set (l0 := filter (fun f => negb (isolated_here st all f)) all) in *.
        exists (l0 :: ls). split; [|split; [|discriminate]].
        -- constructor; [|exact F']. exists (text st all). split; [left; reflexivity|]. split; [exact TI|].
           intros K. apply E. pose proof (Permutation_length (partition_perm (isolated_here st all) all)) as PL. fold l0 in PL. rewrite K, app_nil_r in PL. exact PL.
        -- cbn [List.concat]. rewrite <- app_assoc.
           etransitivity; [apply Permutation_app; [apply (partition_perm (isolated_here st all))|exact P]|]. fold l0. rewrite <- app_assoc. apply Permutation_app_head.
           rewrite !app_assoc. apply Permutation_app_tail. apply Permutation_app_comm.
Qed.

Lemma Forall2_len {A B} (R : A -> B -> Prop) a b : Forall2 R a b -> List.length a = List.length b.
Proof. induction 1; cbn; lia. Qed.

Lemma mentions_all : (pch_name st <> [] -> plain (pch_name st)) -> forall parts i, (forall f, In f (List.concat parts) -> plain (sh f)) ->
  map (fun x => mentions (snd x)) (written (write_all st i parts)) = map (fun all => pch_list ++ map (fun f => sh f) all) parts.
Proof.
  intros HP. induction parts as [|all parts IH]; intros i HF; [reflexivity|]. cbn [write_all written map snd List.concat] in *.
  rewrite IH by (intros f Hf; apply HF; apply in_or_app; auto). f_equal. apply text_lines; [exact HP|]. intros f Hf. apply HF. apply in_or_app. auto.
Qed.
Lemma to_compile_nodup : In "*"%char (output st) -> forall parts i, NoDup (to_compile (write_all st i parts)).
Proof.
  intros HS.
  assert (B : forall parts i n, In n (to_compile (write_all st i parts)) -> exists k, i <= k /\ n = unity_name st k).
  { induction parts as [|all parts IH]; intros i n H; cbn [write_all to_compile] in H; [contradiction|].
    apply in_app_or in H as [H|H]; [destruct (tracked st all); [destruct H as [<-|[]]; exists i; auto|contradiction]|].
    destruct (IH (S i) n H) as (k & Hk & ->). exists k. split; [lia|reflexivity]. }
  induction parts as [|all parts IH]; intros i; cbn [write_all to_compile]; [constructor|].
  destruct (tracked st all); cbn [app]; [|apply IH]. constructor; [|apply IH].
  intros K. apply B in K as (k & Hk & E). apply unity_name_inj in E; [lia|exact HS].
Qed.
End Text.

(** ** The sort looks only at the elements *)
Section SortExt.
Context {A : Type} (P : A -> Prop) (lt lt' : A -> A -> bool).
Hypothesis agree : forall x y, P x -> P y -> lt x y = lt' x y.

Lemma set_Forall (a : list A) i x b : Forall P a -> P x -> set a i x = Some b -> Forall P b.
Proof.
  revert i b. induction a as [|y a IH]; intros [|i] b F Hx E; cbn in E; try discriminate; inversion F; subst.
  - injection E as <-. constructor; assumption.
  - destruct (set a i x) as [b'|] eqn:E'; [|discriminate]. injection E as <-. constructor; [assumption|]. eapply IH; eauto.
Qed.
Lemma get_Forall (a : list A) i x : Forall P a -> get a i = Some x -> P x.
Proof. intros F E. eapply Forall_forall; [exact F|]. eapply nth_error_In. exact E. Qed.

Lemma sift_ext : forall f inc a t j, Forall P a -> P t -> sift lt f inc a t j = sift lt' f inc a t j /\ forall b, sift lt f inc a t j = Some b -> Forall P b.
Proof.
  induction f as [|f IH]; intros inc a t j F Ht; cbn [sift]; [split; [reflexivity|discriminate]|].
  destruct (inc <=? j); [|split; [reflexivity|intros b E; exact (set_Forall a j t b F Ht E)]].
  destruct (get a (j - inc)) as [y|] eqn:G; [|split; [reflexivity|discriminate]].
  pose proof (get_Forall _ _ _ F G) as Hy. rewrite <- (agree t y Ht Hy). destruct (lt t y); [|split; [reflexivity|intros b E; exact (set_Forall a j t b F Ht E)]].
  destruct (set a j y) as [a'|] eqn:E; [|split; [reflexivity|discriminate]]. apply IH; [exact (set_Forall a j y a' F Hy E)|exact Ht].
Qed.
Lemma pass_ext : forall n inc a i, Forall P a -> pass lt n inc a i = pass lt' n inc a i /\ forall b, pass lt n inc a i = Some b -> Forall P b.
Proof.
  induction n as [|n IH]; intros inc a i F; cbn [pass]; [split; [reflexivity|intros b E; injection E as <-; exact F]|].
  destruct (get a i) as [t|] eqn:G; [|split; [reflexivity|discriminate]]. pose proof (get_Forall _ _ _ F G) as Ht.
  destruct (sift_ext (S i) inc a t i F Ht) as [E1 E2]. rewrite <- E1. destruct (sift lt (S i) inc a t i) as [a'|]; [|split; [reflexivity|discriminate]].
  apply IH. apply E2. reflexivity.
Qed.
Lemma gaps_ext : forall gaps a, Forall P a -> sort_gaps lt gaps a = sort_gaps lt' gaps a.
Proof.
  induction gaps as [|g gaps IH]; intros a F; cbn [sort_gaps]; [reflexivity|]. destruct (_ <? g); [apply IH; exact F|].
  destruct (pass_ext (List.length a) g a 0 F) as [E1 E2]. rewrite <- E1. destruct (pass lt (List.length a) g a 0) as [a'|]; [|reflexivity]. apply IH. apply E2. reflexivity.
Qed.
End SortExt.

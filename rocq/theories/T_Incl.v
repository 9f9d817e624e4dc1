(** C40: every file named by an include line of compiler output is recorded as a dependency, and nothing else is. *)
From Coq Require Import List Arith NArith Bool Ascii String Lia.
From Verif Require Import M_Path M_Names M_Incl S_Incl P_Incl P_Incl2.
Import ListNotations.
Open Scope nat_scope.

(** Every text is made of lines in one of the two ways used below. *)
Lemma every_text_has_lines : forall s, exists ls last, s = text_of ls last /\
  (forall l, In l (map fst ls ++ [last]) -> no_nl l) /\ forall lc, In lc ls -> snd lc = LF \/ snd lc = CR.
Proof.
  induction s as [|c s (ls & last & -> & A & B)].
  - exists [], []. split; [reflexivity|split; [|intros lc []]]. intros l [<-|[]]. split; intros [].
  - destruct (is_nl c) eqn:E.
    + exists (([], c) :: ls), last. split; [reflexivity|split].
      * intros l [<-|H]; [split; intros []|auto].
      * intros lc [<-|H]; [now apply is_nl_iff|auto].
    + destruct ls as [|[l k] ls].
      * exists [], (c :: last). split; [reflexivity|split; [|exact B]]. intros l [<-|[]]. apply no_nl_cons. split; [exact E|]. apply A. now left.
      * exists ((c :: l, k) :: ls), last. split; [reflexivity|split].
        -- intros x [<-|H]; [apply no_nl_cons; split; [exact E|]; apply A; now left|]. apply A. now right.
        -- intros lc [<-|H]; [apply (B (l, k)); now left|]. apply B. now right.
Qed.

(** GCC and Clang: the files found are those that some line announces. *)
Theorem C40_gcc_markers : forall ls last,
  (forall l, In l (map fst ls ++ [last]) -> no_nl l /\ quotes_closed l) ->
  (forall lc, In lc ls -> snd lc = LF \/ snd lc = CR) ->
  exists names, gcc_names (text_of ls last) = Some names /\
    forall n, In n names <-> by_preprocessor (map fst ls ++ [last]) n.
Proof.
  intros ls last HL HC. destruct (gcc_lines ls last (S (List.length (text_of ls last))) true LF HL) as (names & E & H); auto.
  - intros lc I. apply is_nl_iff. auto.
  - exists names. split; [exact E|]. intros n. rewrite H. unfold announced, by_preprocessor, is_line_directive. split.
    + intros (b & l & a & X & tl & [Y|[Y Z]]); exists b, l, a, tl; (split; [exact X|]); [auto|]. right. split; [exact Y|].
      destruct Z as [Z|[Z|Z]]; [discriminate|auto|auto].
    + intros (b & l & a & tl & X & [Y|[Y Z]]); exists b, l, a; (split; [exact X|]); exists tl; [auto|]. right. split; [exact Y|tauto].
Qed.
Print Assumptions C40_gcc_markers.

(** cl.exe with /showIncludes: the files found are those that some line announces. *)
Theorem C40_show_includes : forall ls last, (forall l, In l (ls ++ [last]) -> ~ In LF l) ->
  forall n, In n (mscl_names (text_of (map (fun l => (l, LF)) ls) last)) <-> by_show_includes ls n.
Proof. intros ls last HL n. exact (mscl_lines ls last HL n). Qed.
Print Assumptions C40_show_includes.

(** cl.exe preprocessed output: the files found are those that some line announces. *)
Theorem C40_line_one : forall ls last, (forall l, In l (ls ++ [last]) -> ~ In LF l /\ two_quotes l) ->
  exists names, pre_names (text_of (map (fun l => (l, LF)) ls) last) = Some names /\ forall n, In n names <-> by_line_one (ls ++ [last]) n.
Proof.
  intros ls last HL. destruct (pre_lines ls last [] HL eq_refl) as (names & E & H). exists names. split; [exact E|].
  intros n. rewrite H. unfold line_names, by_line_one. split.
  - intros (l & I & b & x & tl & A & B & C & ->). exists b, x, tl. auto.
  - intros (b & x & tl & A & B & C & I). eexists. split; [exact I|]. exists b, x, tl. auto.
Qed.
Print Assumptions C40_line_one.

(** * Recording *)
Section Add.
Variables (hash32 : str -> N) (cleaned : str -> str) (fold_case : bool).
(** The name under which the file system knows a file. *)
Definition key (c : str) : str := if fold_case then lower c else c.

Definition inv (done : list str) (q : parser) : Prop :=
  (forall x, In x (crcs1 q) <-> In x (map hash32 done)) /\ (last1 q = 0%N \/ In (last1 q) (crcs1 q)) /\
  crcs2 q = map (fun c => hash32 (key c)) (recorded q) /\ (last2 q = 0%N \/ In (last2 q) (crcs2 q)) /\
  (forall c, In c (recorded q) -> exists n, In n done /\ c = cleaned n) /\
  (forall n, In n done -> exists c, In c (recorded q) /\ key c = key (cleaned n)) /\ NoDup (map key (recorded q)).

Lemma nmem_iff x l : nmem x l = true <-> In x l.
Proof.
  unfold nmem. rewrite existsb_exists. split.
  - intros (y & A & B). apply N.eqb_eq in B. now subst.
  - intros H. exists x. split; [exact H|apply N.eqb_refl].
Qed.

Lemma add_inv done q n : inv done q ->
  (forall m, In m (n :: done) -> hash32 m <> 0%N /\ hash32 (key (cleaned m)) <> 0%N) ->
  (forall a b, In a (n :: done) -> In b (n :: done) -> hash32 a = hash32 b -> a = b) ->
  (forall a b, In a (n :: done) -> In b (n :: done) -> hash32 (key (cleaned a)) = hash32 (key (cleaned b)) -> key (cleaned a) = key (cleaned b)) ->
  inv (n :: done) (add_include hash32 cleaned fold_case q n).
Proof.
  intros (A & B & C & D & E & F & G) NZ I1 I2.
  destruct (NZ n (or_introl eq_refl)) as [Z1 Z2].
  assert (SEEN1 : forall x, In (hash32 n) (crcs1 q) -> x = n -> In x done).
  { intros x H ->. apply A, in_map_iff in H. destruct H as (m & H1 & H2). rewrite <- (I1 m n); [exact H2|now right|now left|exact H1]. }
  assert (KEEP1 : In (hash32 n) (crcs1 q) -> inv (n :: done) {| last1 := hash32 n; crcs1 := crcs1 q; last2 := last2 q; crcs2 := crcs2 q; recorded := recorded q |} /\
                  (hash32 n = last1 q -> inv (n :: done) q)).
  { intros H. pose proof (SEEN1 n H eq_refl) as Hn.
    assert (COMMON : (forall x, In x (crcs1 q) <-> In x (map hash32 (n :: done))) /\ (forall c, In c (recorded q) -> exists m, In m (n :: done) /\ c = cleaned m) /\
       (forall m, In m (n :: done) -> exists c, In c (recorded q) /\ key c = key (cleaned m))).
    { split; [|split].
      - intros x. rewrite A. cbn [map In]. split; [auto|]. intros [<-|X]; [apply in_map; exact Hn|exact X].
      - intros c Hc. destruct (E c Hc) as (m & X & Y). exists m. split; [now right|exact Y].
      - intros m [<-|X]; auto. }
    destruct COMMON as (C1 & C2 & C3). split.
    - split; [exact C1|]. split; [right; exact H|]. auto.
    - intros _. split; [exact C1|]. split; [exact B|]. auto. }
  unfold add_include. destruct (N.eqb_spec (hash32 n) (last1 q)) as [X1|X1].
  { apply KEEP1; [|exact X1]. destruct B as [B|B]; [congruence|]. now rewrite X1. }
  destruct (nmem (hash32 n) (crcs1 q)) eqn:X2.
  { apply nmem_iff in X2. now apply KEEP1. }
  assert (NEW1 : forall x, In x (crcs1 q ++ [hash32 n]) <-> In x (map hash32 (n :: done))).
  { intros x. rewrite in_app_iff, A. cbn [map In]. tauto. }
  assert (L1 : In (hash32 n) (crcs1 q ++ [hash32 n])) by (apply in_or_app; right; now left).
  change (if fold_case then lower (cleaned n) else cleaned n) with (key (cleaned n)).
  assert (KNOWN : In (hash32 (key (cleaned n))) (crcs2 q) -> exists c, In c (recorded q) /\ key c = key (cleaned n)).
  { intros H. rewrite C in H. apply in_map_iff in H. destruct H as (c & H1 & H2). destruct (E c H2) as (m & M1 & ->).
    exists (cleaned m). split; [exact H2|]. apply I2; [now right|now left|exact H1]. }
  assert (E' : forall c, In c (recorded q) -> exists m, In m (n :: done) /\ c = cleaned m).
  { intros c Hc. destruct (E c Hc) as (m & X & Y). exists m. split; [now right|exact Y]. }
  destruct (N.eqb_spec (hash32 (key (cleaned n))) (last2 q)) as [X3|X3].
  { assert (H : In (hash32 (key (cleaned n))) (crcs2 q)) by (destruct D as [D|D]; [congruence|now rewrite X3]).
    split; [exact NEW1|split; [right; exact L1|split; [exact C|split; [exact D|split; [exact E'|split; [|exact G]]]]]].
    intros m [<-|X]; [now apply KNOWN|auto]. }
  destruct (nmem (hash32 (key (cleaned n))) (crcs2 q)) eqn:X4.
  { apply nmem_iff in X4.
    split; [exact NEW1|split; [right; exact L1|split; [exact C|split; [right; exact X4|split; [exact E'|split; [|exact G]]]]]].
    intros m [<-|X]; [now apply KNOWN|auto]. }
  assert (X4' : ~ In (hash32 (key (cleaned n))) (crcs2 q)) by (rewrite <- nmem_iff; congruence).
  split; [exact NEW1|split; [right; exact L1|]]. cbn [recorded crcs2 last2].
  split; [now rewrite C, map_app|split; [right; apply in_or_app; right; now left|split; [|split]]].
  - intros c Hc. apply in_app_or in Hc. destruct Hc as [Hc|[<-|[]]]; [auto|]. exists n. split; [now left|reflexivity].
  - intros m [<-|X].
    + exists (cleaned n). split; [apply in_or_app; right; now left|reflexivity].
    + destruct (F m X) as (c & Y & Z). exists c. split; [apply in_or_app; now left|exact Z].
  - rewrite map_app. cbn [map]. apply NoDup_rev in G. rewrite <- (rev_involutive (map key (recorded q) ++ [key (cleaned n)])). apply NoDup_rev.
    rewrite rev_app_distr. cbn [rev app]. constructor; [|exact G]. intros H. apply in_rev in H. apply X4'. rewrite C.
    apply in_map_iff in H. destruct H as (c & H1 & H2). apply in_map_iff. exists c. split; [now rewrite H1|exact H2].
Qed.

Lemma add_all_inv : forall names done q, inv done q ->
  (forall m, In m (names ++ done) -> hash32 m <> 0%N /\ hash32 (key (cleaned m)) <> 0%N) ->
  (forall a b, In a (names ++ done) -> In b (names ++ done) -> hash32 a = hash32 b -> a = b) ->
  (forall a b, In a (names ++ done) -> In b (names ++ done) -> hash32 (key (cleaned a)) = hash32 (key (cleaned b)) -> key (cleaned a) = key (cleaned b)) ->
  inv (rev names ++ done) (fold_left (add_include hash32 cleaned fold_case) names q).
Proof.
  induction names as [|n names IH]; intros done q H NZ I1 I2; [exact H|]. cbn [fold_left rev]. rewrite <- app_assoc. cbn [app].
  assert (SUB : forall m, In m (names ++ n :: done) -> In m ((n :: names) ++ done)).
  { intros m X. apply in_app_or in X. destruct X as [X|[X|X]]; [right; apply in_or_app; now left|now left|right; apply in_or_app; now right]. }
  assert (SUB2 : forall m, In m (n :: done) -> In m ((n :: names) ++ done)).
  { intros m [X|X]; [now left|right; apply in_or_app; now right]. }
  apply IH; auto. apply add_inv; auto.
Qed.
End Add.

(** Recording: if the hash tells the names involved apart and is not 0 for them, every named file is recorded, once, under its cleaned
    name, and nothing else is. *)
Theorem C40_recorded : forall hash32 cleaned fold_case names,
  let key := fun c => if fold_case : bool then lower c else c in
  (forall m, In m names -> hash32 m <> 0%N /\ hash32 (key (cleaned m)) <> 0%N) ->
  (forall a b, In a names -> In b names -> hash32 a = hash32 b -> a = b) ->
  (forall a b, In a names -> In b names -> hash32 (key (cleaned a)) = hash32 (key (cleaned b)) -> key (cleaned a) = key (cleaned b)) ->
  (forall n, In n names -> exists c, In c (add_all hash32 cleaned fold_case names) /\ key c = key (cleaned n)) /\
  (forall c, In c (add_all hash32 cleaned fold_case names) -> exists n, In n names /\ c = cleaned n) /\
  NoDup (map key (add_all hash32 cleaned fold_case names)).
Proof.
  intros h cl fc names key0 NZ I1 I2.
  destruct (add_all_inv h cl fc names [] (new_parser)) as (_ & _ & _ & _ & E & F & G).
  - unfold inv. cbn [new_parser crcs1 last1 crcs2 last2 recorded map]. split; [tauto|split; [now left|split; [reflexivity|split; [now left|split; [intros c []|split; [intros c []|constructor]]]]]].
  - rewrite app_nil_r. exact NZ.
  - rewrite app_nil_r. exact I1.
  - rewrite app_nil_r. exact I2.
  - rewrite app_nil_r in *. split; [|split].
    + intros n H. apply (F n). now apply in_rev in H.
    + intros c H. destruct (E c H) as (n & A & B). exists n. split; [now apply in_rev|exact B].
    + exact G.
Qed.
Print Assumptions C40_recorded.

(** Without that condition: whatever the 32 bit hash, there are two different files of which only one is recorded when both are named. *)
Lemma pigeon (f : nat -> N) (m : nat) : (forall i, (f i < N.of_nat m)%N) -> exists i j, i <> j /\ f i = f j.
Proof.
  intros H.
  assert (ND : ~ NoDup (map (fun i => N.to_nat (f i)) (seq 0 (S m)))).
  { intros X. apply NoDup_incl_length with (l' := seq 0 m) in X.
    - rewrite map_length, !seq_length in X. lia.
    - intros x Hx. apply in_map_iff in Hx. destruct Hx as (i & <- & _). apply in_seq. specialize (H i). lia. }
  assert (G : forall l, (exists i j, i <> j /\ f i = f j) \/ NoDup l -> NoDup l -> (exists i j, i <> j /\ f i = f j) \/ NoDup (map (fun i => N.to_nat (f i)) l)).
  { clear ND. intros l _. induction l as [|x l IH]; intros N; [right; constructor|]. inversion N as [|? ? N1 N2]; subst. destruct (IH N2) as [X|X]; [now left|].
    cbn [map]. destruct (in_dec Nat.eq_dec (N.to_nat (f x)) (map (fun i => N.to_nat (f i)) l)) as [Y|Y].
    - left. apply in_map_iff in Y. destruct Y as (y & Y1 & Y2). exists y, x. split; [intros ->; contradiction|]. now apply N2Nat.inj.
    - right. now constructor. }
  destruct (G (seq 0 (S m)) (or_intror (seq_NoDup _ _)) (seq_NoDup _ _)) as [X|X]; [exact X|contradiction].
Qed.
Theorem C40_hash_collision_refuted : forall (hash32 : str -> N) cleaned fold_case, (forall s, (hash32 s < 2 ^ 32)%N) ->
  exists i j, i <> j /\ List.length (add_all hash32 cleaned fold_case [L "/" ++ repeat "a"%char i; L "/" ++ repeat "a"%char j]) <= 1.
Proof.
  intros h cl fc B. assert (HB : exists big, N.of_nat big = (2 ^ 32)%N) by (eexists; apply N2Nat.id). destruct HB as (big & HB).
  destruct (pigeon (fun i => h (L "/" ++ repeat "a"%char i)) big) as (i & j & N & E); [intros i; rewrite HB; apply B|].
  exists i, j. split; [exact N|]. unfold add_all. cbn [fold_left]. unfold add_include at 2. cbn [new_parser last1 crcs1 nmem existsb last2 crcs2].
  destruct (N.eqb_spec (h (L "/" ++ repeat "a"%char i)) 0) as [Z|Z].
  - unfold add_include. rewrite <- E, Z. cbn. lia.
  - destruct (N.eqb_spec (h (if fc then lower (cl (L "/" ++ repeat "a"%char i)) else cl (L "/" ++ repeat "a"%char i))) 0) as [Y|Y];
      unfold add_include; cbn [last1]; rewrite <- E, N.eqb_refl; cbn; lia.
Qed.
Print Assumptions C40_hash_collision_refuted.

(** cl.exe output that does not end with a line end: the file its last line names is not recorded. *)
Theorem C40_last_line_refuted : exists text n, (exists l, text = l /\ ~ In LF l /\ by_show_includes [l] n) /\ mscl_names text = [].
Proof.
  exists (L "Note: including file: C:\a.h"), (L "C:\a.h"). split; [|reflexivity].
  eexists. split; [reflexivity|split].
  - cbn. intros H. repeat (destruct H as [H|H]; [discriminate|]). exact H.
  - exists (L "Note: including file: C:\a.h"), (L "Note"), (L " including file"), 1. split; [|split; [discriminate|split; [discriminate|split; [|split; [|split; [|reflexivity]]]]]].
    + left. split; [now left|]. intros x H. apply (f_equal (fun s => last s "000"%char)) in H. rewrite last_last in H. discriminate.
    + cbn. intros H. repeat (destruct H as [H|H]; [discriminate|]). exact H.
    + cbn. intros H. repeat (destruct H as [H|H]; [discriminate|]). exact H.
    + exists "C"%char, (L "\a.h"). split; [reflexivity|split; [exists 2; split; [lia|now left]|]].
      intros c H. cbn in H. split.
      * intros K. cbn in K. repeat (destruct H as [<-|H]; [repeat (destruct K as [K|K]; [discriminate|]); exact K|]). exact H.
      * intros ->. repeat (destruct H as [H|H]; [discriminate|]). exact H.
Qed.
Print Assumptions C40_last_line_refuted.

Example C40_case :
  gcc_names (L "# 1 " ++ [Q] ++ L "a.cpp" ++ [Q; LF] ++ L "# 1 " ++ [Q] ++ L "<built-in>" ++ [Q; LF] ++ L "# 1 " ++ [Q] ++ L "b.h" ++ [Q] ++ L " 1" ++ [CR; LF]
             ++ L "int x; # 1 " ++ [LF] ++ L "# 2 " ++ [Q] ++ L "a.cpp" ++ [Q] ++ L " 2" ++ [LF] ++ L "#line 1 " ++ [Q] ++ L "c.h" ++ [Q; LF]
             ++ L "# 9 " ++ [Q] ++ L "d.h" ++ [Q]) = Some [L "b.h"; L "c.h"; L "d.h"] /\
  mscl_names (L "a.cpp" ++ [CR; LF] ++ L "Note: including file:   C:\b.h" ++ [CR; LF] ++ L "C:\x.cpp(3): error C1: y" ++ [LF] ++ L "Note: including file: D:\c.h" ++ [LF])
    = [L "C:\b.h"; L "D:\c.h"] /\
  pre_names (L "#line 1 " ++ [Q] ++ L "a.cpp" ++ [Q; LF; TAB] ++ L "#line 1 " ++ [Q] ++ L "b.h" ++ [Q; LF] ++ L "x #line 1 " ++ [Q] ++ L "no.h" ++ [Q; LF]
             ++ L "#line 2 " ++ [Q] ++ L "a.cpp" ++ [Q]) = Some [L "a.cpp"; L "b.h"] /\
  add_all (fun s => N.of_nat (S (List.length s))) (fun s => L "/w/" ++ s) false [L "b.h"; L "cc.h"; L "b.h"] = [L "/w/b.h"; L "/w/cc.h"].
Proof. repeat split; vm_compute; reflexivity. Qed.

(** The conditions on lines are met by an ordinary line marker. *)
Lemma marker_closed kw l n tail : kw = L "# " \/ kw = L "#line " -> marker kw l n tail -> quotes_closed l.
Proof.
  intros K (ds & D & F & ->) kw' ds' rest K' D' E. right.
  assert (X : skip_digits LF (ds ++ sp :: Q :: n ++ Q :: tail) = skip_digits LF (ds' ++ sp :: Q :: rest)).
  { f_equal. destruct K as [-> | ->]; destruct K' as [-> | ->]; try discriminate E.
    - change (hash :: sp :: (ds ++ sp :: Q :: n ++ Q :: tail) = hash :: sp :: (ds' ++ sp :: Q :: rest)) in E. congruence.
    - now apply app_inv_head in E. }
  rewrite !skip_digits_exact in X by (auto; reflexivity). apply (f_equal snd) in X. cbn [snd] in X.
  assert (Y : rest = n ++ Q :: tail) by congruence. rewrite Y. apply in_or_app. right. now left.
Qed.
Example C40_lines_case : let l := L "# 12 " ++ [Q] ++ L "b.h" ++ [Q] ++ L " 1" in
  no_nl l /\ quotes_closed l /\ by_preprocessor [l; L "int x;"] (L "b.h").
Proof.
  set (l := L "# 12 " ++ [Q] ++ L "b.h" ++ [Q] ++ L " 1").
  assert (M : marker (L "# ") l (L "b.h") (L " 1")).
  { exists (L "12"). split; [|split; [|reflexivity]].
    - intros c [<-|[<-|[]]]; [exists 1|exists 2]; (split; [lia|reflexivity]).
    - split; [intros H; cbn in H; repeat (destruct H as [H|H]; [discriminate|]); exact H|split].
      + intros [r H]. discriminate.
      + intros d c H. apply (f_equal (fun s => last s "000"%char)) in H. rewrite last_last in H. cbn in H. subst c. split; discriminate. }
  split; [|split].
  - split; intros H; cbn in H; repeat (destruct H as [H|H]; [discriminate|]); exact H.
  - apply (marker_closed (L "# ") l _ _ (or_introl eq_refl) M).
  - exists [], l, [L "int x;"], (L " 1"). split; [reflexivity|]. right. split; [exact M|]. left. exists []. reflexivity.
Qed.

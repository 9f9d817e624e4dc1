(** Lemmas about command lines, for C92. *)
From Coq Require Import String Ascii List Bool Arith NArith ZArith Lia.
From Verif Require Import M_Path M_Args M_Names M_Drv P_Drv M_Cli S_Cli.
Import ListNotations.
Local Open Scope list_scope.

Local Notation tab := (ascii_of_nat 9).

(** *** Taking a command line apart *)
Lemma so_far_S k cur : so_far (S k) cur = bslash :: so_far k cur.
Proof. reflexivity. Qed.
Lemma so_far_0 t : so_far 0 (Some t) = t.
Proof. reflexivity. Qed.

Definition begun (k : nat) (cur : option str) : Prop := k <> 0 \/ cur <> None.

Lemma wsplit_plain c k cur inq r : c <> bslash -> c <> quote -> (inq = true \/ (c <> " "%char /\ c <> tab)) ->
  wsplit k cur inq (c :: r) = wsplit 0 (Some (c :: so_far k cur)) inq r.
Proof.
  intros H1 H2 H3. cbn [wsplit]. change (ascii_of_nat 92) with bslash. change (ascii_of_nat 34) with quote.
  destruct (Ascii.eqb_spec c bslash); [congruence|]. destruct (Ascii.eqb_spec c quote); [congruence|].
  destruct H3 as [->|(H3 & H4)]; [rewrite andb_false_r; reflexivity|].
  destruct (Ascii.eqb_spec c " "%char); [congruence|]. destruct (Ascii.eqb_spec c tab); [congruence|]. reflexivity.
Qed.
Lemma wsplit_bs k cur inq r : wsplit k cur inq (bslash :: r) = wsplit (S k) cur inq r.
Proof. reflexivity. Qed.

Lemma wsplit_run inq w : (inq = true \/ (~ In " "%char w /\ ~ In tab w)) -> ~ In quote w ->
  forall k cur t, exists k' cur', wsplit k cur inq (w ++ t) = wsplit k' cur' inq t /\
    so_far k' cur' = rev w ++ so_far k cur /\ (begun k cur \/ w <> [] -> begun k' cur') /\
    (w <> [] -> (forall b, w <> b ++ [bslash]) -> k' = 0) /\ (w = [] -> k' = k).
Proof.
  induction w as [|c w IH]; intros H1 H2 k cur t.
  - exists k, cur. split; [reflexivity|]. split; [reflexivity|]. split; [intros [H|H]; [exact H|congruence]|]. split; [congruence|reflexivity].
  - assert (H1' : inq = true \/ (~ In " "%char w /\ ~ In tab w)).
    { destruct H1 as [H1|(A & B)]; [left; exact H1|right; split; intro X; [apply A|apply B]; right; exact X]. }
    assert (H2' : ~ In quote w) by (intro X; apply H2; right; exact X).
    cbn [app]. destruct (ascii_dec c bslash) as [->|Hb].
    + rewrite wsplit_bs. destruct (IH H1' H2' (S k) cur t) as (k' & cur' & E1 & E2 & E3 & E4 & E5).
      exists k', cur'. split; [exact E1|]. split; [rewrite E2, so_far_S; cbn [rev]; rewrite <- app_assoc; reflexivity|].
      split; [intros _; apply E3; left; left; discriminate|].
      split; [|discriminate]. intros _ Hl. destruct w as [|d w]; [exfalso; exact (Hl [] eq_refl)|].
      apply E4; [discriminate|]. intros b X. apply (Hl (bslash :: b)). rewrite X. reflexivity.
    + rewrite wsplit_plain; [|exact Hb|intros ->; apply H2; left; reflexivity|].
      * destruct (IH H1' H2' 0 (Some (c :: so_far k cur)) t) as (k' & cur' & E1 & E2 & E3 & E4 & E5).
        exists k', cur'. split; [exact E1|]. split; [rewrite E2, so_far_0; cbn [rev]; rewrite <- app_assoc; reflexivity|].
        split; [intros _; apply E3; left; right; discriminate|].
        split; [|discriminate]. intros _ Hl. destruct w as [|d w].
        -- apply E5. reflexivity.
        -- apply E4; [discriminate|]. intros b X. apply (Hl (c :: b)). rewrite X. reflexivity.
      * destruct H1 as [H1|(A & B)]; [left; exact H1|right; split; intros ->; [apply A|apply B]; left; reflexivity].
Qed.

Definition piece := (bool * str)%type.
Definition ptext (p : piece) : str := if fst p then [quote] ++ snd p ++ [quote] else snd p.
Definition okp (p : piece) : Prop := if fst p then text (snd p) else word (snd p).
Fixpoint joined (l : list piece) : str :=
  match l with [] => [] | [x] => ptext x | x :: r => ptext x ++ L " " ++ joined r end.

Lemma emit k cur t : begun k cur -> (t = [] \/ exists r, t = " "%char :: r) ->
  wsplit k cur false t = rev (so_far k cur) :: match t with [] => [] | _ :: r => wsplit 0 None false r end.
Proof.
  intros Hb [->|(r & ->)]; destruct k as [|k], cur as [x|]; try reflexivity; destruct Hb; congruence.
Qed.

Lemma wsplit_piece p t : okp p -> (t = [] \/ exists r, t = " "%char :: r) ->
  wsplit 0 None false (ptext p ++ t) = snd p :: match t with [] => [] | _ :: r => wsplit 0 None false r end.
Proof.
  destruct p as (q & a). unfold okp, ptext. cbn [fst snd]. intros Hp Ht. destruct q.
  - destruct Hp as (Hq & Hl).
    replace (([quote] ++ a ++ [quote]) ++ t) with (quote :: a ++ quote :: t) by (cbn [app]; rewrite <- app_assoc; reflexivity).
    transitivity (wsplit 0 (Some []) true (a ++ quote :: t)); [reflexivity|].
    destruct (wsplit_run true a (or_introl eq_refl) Hq 0 (Some []) (quote :: t)) as (k & cur & E1 & E2 & E3 & E4 & E5).
    rewrite E1. assert (k = 0).
    { destruct a as [|c a]; [apply E5; reflexivity|apply E4; [discriminate|exact Hl]]. }
    subst k. rewrite so_far_0, app_nil_r in E2.
    assert (Hr : rev (so_far 0 cur) = a) by (rewrite E2, rev_involutive; reflexivity).
    transitivity (wsplit 0 (Some (so_far 0 cur)) false t).
    { destruct Ht as [->|(r & ->)]; reflexivity. }
    rewrite emit by (try exact Ht; right; discriminate). rewrite so_far_0, Hr. reflexivity.
  - destruct Hp as (Hn & H1 & H2 & H3).
    destruct (wsplit_run false a (or_intror (conj H1 H2)) H3 0 None t) as (k & cur & E1 & E2 & E3 & E4 & E5).
    rewrite E1, emit by (try exact Ht; apply E3; right; exact Hn). change (so_far 0 None) with (@nil ascii) in E2. rewrite E2, app_nil_r, rev_involutive. reflexivity.
Qed.

Lemma split_joined l : Forall okp l -> win_split (joined l) = map snd l.
Proof.
  unfold win_split. induction l as [|x l IH]; intro H; [reflexivity|]. inversion H; subst.
  destruct l as [|y l].
  - cbn [joined]. rewrite <- (app_nil_r (ptext x)). rewrite wsplit_piece by auto. reflexivity.
  - change (joined (x :: y :: l)) with (ptext x ++ " "%char :: joined (y :: l)).
    rewrite wsplit_piece by eauto. rewrite IH by assumption. reflexivity.
Qed.

Lemma ptext_not_nil p : okp p -> ptext p <> [].
Proof. destruct p as ([] & a); unfold okp, ptext; cbn [fst snd]; [discriminate|intros (H & _); exact H]. Qed.
Lemma joined_snoc l p : joined (l ++ [p]) = match l with [] => ptext p | _ => joined l ++ L " " ++ ptext p end.
Proof.
  induction l as [|x l IH]; [reflexivity|]. destruct l as [|y l]; [reflexivity|].
  change ((x :: y :: l) ++ [p]) with (x :: ((y :: l) ++ [p])).
  transitivity (ptext x ++ L " " ++ joined ((y :: l) ++ [p])); [reflexivity|].
  rewrite IH. change (joined (x :: y :: l)) with (ptext x ++ L " " ++ joined (y :: l)). rewrite <- !app_assoc. reflexivity.
Qed.
Lemma joined_nil l : Forall okp l -> joined l = [] -> l = [].
Proof.
  destruct l as [|x l]; [reflexivity|]. intros H E. inversion H; subst. exfalso. apply (ptext_not_nil x); [assumption|].
  destruct l; [exact E|]. change (ptext x ++ L " " ++ joined (p :: l) = []) in E. apply app_eq_nil in E. tauto.
Qed.

(** *** Reading the arguments *)
Definition keeps (l : list piece) (o : opts) : Prop := Forall okp l /\ args o = joined l.

Lemma keeps_add l o a p : keeps l o -> okp p -> ptext p = a -> keeps (l ++ [p]) (add a o).
Proof.
  intros (H1 & H2) Hp <-. split; [apply Forall_app; auto|]. unfold add, set_args, sep. cbn [args]. rewrite joined_snoc, H2.
  destruct l as [|x l]; [reflexivity|]. destruct (joined (x :: l)) eqn:E; [|reflexivity].
  apply joined_nil in E; [discriminate|assumption].
Qed.

Lemma lookup_in t a k : lookup t a = Some k -> exists n, In (n, k) t /\ a = L n.
Proof.
  induction t as [|(n & k') t IH]; cbn [lookup]; [discriminate|]. destruct (teq a (L n)) eqn:E.
  - intro H. injection H as <-. exists n. split; [left; reflexivity|]. apply teq_eq. exact E.
  - intro H. destruct (IH H) as (m & Hm & Ha). exists m. split; [right; exact Hm|exact Ha].
Qed.

Definition valued_name (a : str) (v : valued) : Prop :=
  match v with
  | CacheTrim => a = L "-cachetrim" | CacheLevel => a = L "-cachecompressionlevel" | DistLevel => a = L "-distcompressionlevel"
  | Config => a = L "-config" | DBFile => a = L "-dbfile" | SourceFile => a = L "-sourcefile"
  end.
Ltac in_table H := cbn [In table table2 table3] in H; repeat (destruct H as [H|H]; [try discriminate H; injection H as <- <-; reflexivity|]); destruct H.
Lemma takes_name a v : kind_of a = Takes v -> valued_name a v.
Proof.
  destruct a as [|c a]; [discriminate|]. unfold kind_of. destruct (Ascii.eqb c "-"); [|discriminate].
  destruct (lookup table (c :: a)) as [k|] eqn:E1.
  - intros ->. apply lookup_in in E1. destruct E1 as (n & Hn & ->). in_table Hn.
  - destruct (if starts_with _ _ then _ else _); [discriminate|]. destruct (lookup table2 (c :: a)) as [k|] eqn:E2.
    + intros ->. apply lookup_in in E2. destruct E2 as (n & Hn & ->). in_table Hn.
    + destruct (starts_with _ _); [discriminate|]. destruct (lookup table3 (c :: a)) as [k|] eqn:E3; [|discriminate].
      intros ->. apply lookup_in in E3. destruct E3 as (n & Hn & ->). in_table Hn.
Qed.
Lemma name_takes a : takes_path a = true \/ takes_word a = true -> exists v, kind_of a = Takes v /\ valued_name a v.
Proof.
  unfold takes_path, takes_word. cbn [existsb]. rewrite !orb_true_iff.
  intros [[H|[H|H]]|[H|[H|[H|[H|H]]]]]; try discriminate H;
    destruct (list_eq_dec ascii_dec a (L _)) as [->|] in H; try discriminate H.
  - exists Config. split; reflexivity.
  - exists DBFile. split; reflexivity.
  - exists CacheTrim. split; reflexivity.
  - exists CacheLevel. split; reflexivity.
  - exists DistLevel. split; reflexivity.
  - exists SourceFile. split; reflexivity.
Qed.

(** The options that take a value are those of the specification. *)
Definition is_path (v : valued) : bool := match v with Config | DBFile => true | _ => false end.
Lemma kind_takes a v : kind_of a = Takes v -> is_option a = true /\ takes_path a = is_path v /\ takes_word a = negb (is_path v).
Proof. intro H. apply takes_name in H. destruct v; cbn [valued_name] in H; subst a; repeat split; reflexivity. Qed.
Lemma kind_other a : (forall v, kind_of a <> Takes v) -> takes_path a = false /\ takes_word a = false /\
  is_option a = match kind_of a with Target => false | _ => true end.
Proof.
  intro H. split; [|split].
  - destruct (takes_path a) eqn:E; [|reflexivity]. destruct (name_takes a (or_introl E)) as (v & Hv & _). destruct (H v Hv).
  - destruct (takes_word a) eqn:E; [|reflexivity]. destruct (name_takes a (or_intror E)) as (v & Hv & _). destruct (H v Hv).
  - destruct a as [|c a]; [reflexivity|]. cbn [is_option]. unfold kind_of. destruct (Ascii.eqb c "-"); [|reflexivity].
    destruct (lookup table (c :: a)) as [k|] eqn:E1.
    { apply lookup_in in E1. destruct E1 as (n & Hn & _). cbn [In table] in Hn. repeat (destruct Hn as [Hn|Hn]; [injection Hn as <- <-; reflexivity|]). destruct Hn. }
    destruct (if starts_with _ _ then _ else _); [reflexivity|]. destruct (lookup table2 (c :: a)) as [k|] eqn:E2.
    { apply lookup_in in E2. destruct E2 as (n & Hn & _). cbn [In table2] in Hn. repeat (destruct Hn as [Hn|Hn]; [injection Hn as <- <-; reflexivity|]). destruct Hn. }
    destruct (starts_with _ _); [reflexivity|]. destruct (lookup table3 (c :: a)) as [k|] eqn:E3; [|reflexivity].
    apply lookup_in in E3. destruct E3 as (n & Hn & _). cbn [In table3] in Hn. repeat (destruct Hn as [Hn|Hn]; [injection Hn as <- <-; reflexivity|]). destruct Hn.
Qed.

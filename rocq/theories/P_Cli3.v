(** What the options say, and limits of numbers, for C92. *)
From Coq Require Import String Ascii List Bool Arith NArith ZArith Lia.
From Verif Require Import M_Path M_Args M_Names M_Drv P_Drv M_Cli S_Cli P_Cli P_Cli2.
Import ListNotations.
Local Open Scope list_scope.

Definition effect (a : str) (f : field) (b : bool) : bool := if is_one a (on f) then true else if is_one a (off f) then false else b.

Lemma kind_in a k : kind_of a = k -> (exists fs, k = Sets fs) \/ (exists fs m, k = Wrap fs m) ->
  exists n, In (n, k) (table ++ table2 ++ table3) /\ a = L n.
Proof.
  intros <- H. destruct a as [|c a]; [destruct H as [(fs & H)|(fs & m & H)]; discriminate H|].
  unfold kind_of in *. destruct (Ascii.eqb c "-"); [|destruct H as [(fs & H)|(fs & m & H)]; discriminate H].
  destruct (lookup table (c :: a)) as [k|] eqn:E1.
  { apply lookup_in in E1. destruct E1 as (n & Hn & E). exists n. rewrite !in_app_iff. auto. }
  destruct (if starts_with _ _ then _ else _); [destruct H as [(fs & H)|(fs & m & H)]; discriminate H|].
  destruct (lookup table2 (c :: a)) as [k|] eqn:E2.
  { apply lookup_in in E2. destruct E2 as (n & Hn & E). exists n. rewrite !in_app_iff. auto. }
  destruct (starts_with _ _); [destruct H as [(fs & H)|(fs & m & H)]; discriminate H|].
  destruct (lookup table3 (c :: a)) as [k|] eqn:E3; [|destruct H as [(fs & H)|(fs & m & H)]; discriminate H].
  apply lookup_in in E3. destruct E3 as (n & Hn & E). exists n. rewrite !in_app_iff. auto.
Qed.

Definition fields : list field :=
  [ForceCleanBuild; StopOnFirstError; FastCancel; WaitMode; DisplayTargetList; ShowHiddenTargets; DisplayDependencyDB;
   GenerateDotGraph; GenerateDotGraphFull; GenerateCompilationDatabase; NoUnity; UseCacheRead; UseCacheWrite; CacheInfo;
   CacheVerbose; AllowDistributed; DistVerbose; NoLocalConsumption; AllowLocalRace; ShowVerbose; ShowBuildReason;
   ShowCommandSummary; ShowCommandLines; ShowCommandOutput; ShowProgress; ShowSummary; ShowTotalTimeTaken; NoSummaryOnError;
   EnableMonitor; Profile; FixupErrorPaths; ContinueAfterDBMove; ProgressSpecified].
Lemma all_fields f : In f fields.
Proof. destruct f; cbn; tauto. Qed.

Definition fs_of (k : kind) : option (list (field * bool)) := match k with Sets fs => Some fs | Wrap fs _ => Some fs | _ => None end.
Definition apply_fs (fs : list (field * bool)) (f : field) (b : bool) : bool :=
  fold_left (fun g x y => if field_beq y (fst x) then snd x else g y) fs (fun _ => b) f.
Lemma apply_flags fs o f : flag (set_flags fs o) f = apply_fs fs f (flag o f).
Proof.
  unfold set_flags, apply_fs. cbn [flag]. generalize (flag o). intro g.
  assert (H : forall g1 g2 : field -> bool, g1 f = g2 f ->
    fold_left (fun (g : field -> bool) x y => if field_beq y (fst x) then snd x else g y) fs g1 f =
    fold_left (fun (g : field -> bool) x y => if field_beq y (fst x) then snd x else g y) fs g2 f).
  { induction fs as [|x fs IH]; intros g1 g2 E; [exact E|]. cbn [fold_left]. apply IH. rewrite E. reflexivity. }
  apply H. reflexivity.
Qed.

(** Each entry of the tables, for each field. *)
Lemma tables_agree :
  forallb (fun e => match fs_of (snd e) with
                    | Some fs => forallb (fun f => forallb (fun b => Bool.eqb (apply_fs fs f b) (effect (L (fst e)) f b)) [true; false]) fields
                    | None => true
                    end) (table ++ table2 ++ table3) = true.
Proof. vm_compute. reflexivity. Qed.
Lemma named_agree :
  forallb (fun f => forallb (fun n => match fs_of (kind_of (L n)) with Some _ => true | None => false end) (on f ++ off f)) fields = true.
Proof. vm_compute. reflexivity. Qed.

Lemma effect_kind a f b : effect a f b = match fs_of (kind_of a) with Some fs => apply_fs fs f b | None => b end.
Proof.
  destruct (fs_of (kind_of a)) as [fs|] eqn:E.
  - destruct (kind_in a (kind_of a) eq_refl) as (n & Hn & Ha).
    { destruct (kind_of a); try discriminate E; eauto. }
    pose proof tables_agree as T. rewrite forallb_forall in T. specialize (T _ Hn). cbn [fst snd] in T. rewrite E in T.
    rewrite forallb_forall in T. specialize (T f (all_fields f)). rewrite forallb_forall in T.
    specialize (T b ltac:(destruct b; cbn; auto)). apply eqb_prop in T. rewrite Ha. symmetry. exact T.
  - unfold effect. pose proof named_agree as T. rewrite forallb_forall in T. specialize (T f (all_fields f)). rewrite forallb_forall in T.
    assert (G : forall l, incl l (on f ++ off f) -> is_one a l = false).
    { intros l Hl. unfold is_one. destruct (existsb _ l) eqn:X; [|reflexivity]. apply existsb_exists in X. destruct X as (n & Hn & Hx).
      destruct (list_eq_dec ascii_dec a (L n)) as [->|]; [|discriminate Hx]. specialize (T n (Hl n Hn)). rewrite E in T. discriminate T. }
    rewrite (G (on f)), (G (off f)); [reflexivity|apply incl_appr, incl_refl|apply incl_appl, incl_refl].
Qed.

Lemma single_flag a o o1 f : single a o = Done o1 -> flag o1 f = effect a f (flag o f).
Proof.
  rewrite effect_kind. unfold single. destruct (kind_of a) as [fs|v|n|t|fs m| | |]; try discriminate; cbn [fs_of].
  - intro H. injection H as <-. exact (apply_flags fs (add a o) f).
  - destruct (n <=? 256)%Z; [|discriminate]. intro H. injection H as <-. reflexivity.
  - unfold take_report. destruct (tokenize "=" t) as [|x [|y r]].
    + intro H. injection H as <-. reflexivity.
    + intro H. injection H as <-. reflexivity.
    + destruct (_ || _); [|discriminate]. intro H. injection H as <-. reflexivity.
  - intro H. injection H as <-. exact (apply_flags fs (add a o) f).
  - intro H. injection H as <-. reflexivity.
Qed.
Lemma take_flag v x o o1 t f : take v (Some x) o = Some (o1, t) -> flag o1 f = flag o f.
Proof.
  destruct v; cbn [take].
  - destruct (scan_u x); [|discriminate]. cbn [option_map]. intro H. injection H as <- <-. reflexivity.
  - destruct (scan_i x); [|discriminate]. destruct (_ || _); [discriminate|]. intro H. injection H as <- <-. reflexivity.
  - destruct (scan_i x); [|discriminate]. destruct (_ || _); [discriminate|]. intro H. injection H as <- <-. reflexivity.
  - intro H. injection H as <- <-. reflexivity.
  - intro H. injection H as <- <-. reflexivity.
  - destruct (tokenize ";" x); [discriminate|]. intro H. injection H as <- <-. reflexivity.
Qed.

Lemma settings_read f n : forall l, List.length l <= n -> forall first o o',
  process first l o = Done o' -> wrapper o' <> WSL -> flag o' f = setting f l (flag o f).
Proof.
  induction n as [|n IH]; intros l Hl first o o' Hp Hn.
  - destruct l; [|cbn in Hl; lia]. cbn [process] in Hp. injection Hp as <-. reflexivity.
  - destruct l as [|a l].
    { cbn [process] in Hp. injection Hp as <-. reflexivity. }
    cbn [List.length] in Hl. destruct (no_wsl _ _ _ _ _ Hp Hn) as (Hw & Hh). cbn [setting].
    destruct (kind_dec a) as [(v & Hv)|Hno].
    + rewrite (takes_none a v Hv). destruct l as [|x l].
      * rewrite (process_dangling _ _ _ _ Hw Hh Hv) in Hp. destruct v; cbn [take] in Hp; try discriminate Hp.
        destruct (sources (add a o)); [discriminate Hp|]. injection Hp as <-. reflexivity.
      * rewrite (process_taken _ _ _ _ _ _ Hw Hh Hv) in Hp.
        destruct (take v (Some x) (add a o)) as [(o1 & t)|] eqn:E; [|discriminate Hp].
        rewrite (IH l ltac:(cbn [List.length] in Hl; lia) _ _ _ Hp Hn). cbn [set_args flag]. rewrite (take_flag _ _ _ _ _ f E). reflexivity.
    + destruct (kind_other a Hno) as (K1 & K2 & K3). rewrite K1, K2. cbn [orb].
      rewrite (process_single _ _ _ _ Hw Hh Hno) in Hp.
      destruct (single a o) as [o1| |] eqn:E; try discriminate Hp. cbn [and_then] in Hp.
      rewrite (IH l ltac:(lia) _ _ _ Hp Hn), (single_flag _ _ _ f E). reflexivity.
Qed.

Lemma finish_flags r e o o' : finish r e o = Done o' ->
  (forall f, f <> ShowProgress -> f <> UseCacheRead -> f <> UseCacheWrite -> flag o' f = flag o f) /\
  flag o' ShowProgress = (if flag o ProgressSpecified then flag o ShowProgress else negb r) /\
  (if flag o UseCacheRead || flag o UseCacheWrite
   then flag o' UseCacheRead = flag o UseCacheRead /\ flag o' UseCacheWrite = flag o UseCacheWrite
   else match e with
        | None => flag o' UseCacheRead = false /\ flag o' UseCacheWrite = false
        | Some m => (m = L "r" /\ flag o' UseCacheRead = true /\ flag o' UseCacheWrite = false) \/
                    (m = L "w" /\ flag o' UseCacheRead = false /\ flag o' UseCacheWrite = true) \/
                    (m = L "rw" /\ flag o' UseCacheRead = true /\ flag o' UseCacheWrite = true)
        end).
Proof.
  unfold finish. intro H.
  assert (X : forall o1, o1 = (if flag o ProgressSpecified then o else set_flags [(ShowProgress, negb r)] o) ->
     flag o1 UseCacheRead = flag o UseCacheRead /\ flag o1 UseCacheWrite = flag o UseCacheWrite /\
     flag o1 ShowProgress = (if flag o ProgressSpecified then flag o ShowProgress else negb r) /\
     (forall f, f <> ShowProgress -> flag o1 f = flag o f)).
  { intros o1 ->. destruct (flag o ProgressSpecified); [auto|]. repeat split; try reflexivity.
    intros f Hf. cbn [set_flags flag fold_left fst snd]. destruct (field_beq f ShowProgress) eqn:E; [|reflexivity].
    apply internal_field_dec_bl in E. congruence. }
  destruct (X _ eq_refl) as (X1 & X2 & X3 & X4). clear X.
  set (o1 := if flag o ProgressSpecified then o else set_flags [(ShowProgress, negb r)] o) in *. cbn [flag] in H.
  rewrite X1, X2 in H.
  assert (Y : forall fs oo, flag oo = flag o1 -> fs = [(UseCacheRead, true)] \/ fs = [(UseCacheWrite, true)] \/ fs = [(UseCacheRead, true); (UseCacheWrite, true)] ->
    (forall f, f <> ShowProgress -> f <> UseCacheRead -> f <> UseCacheWrite -> flag (set_flags fs oo) f = flag o f) /\
    flag (set_flags fs oo) ShowProgress = (if flag o ProgressSpecified then flag o ShowProgress else negb r)).
  { intros fs oo Hoo Hfs. split.
    - intros f F1 F2 F3. rewrite <- (X4 f F1), <- Hoo.
      destruct Hfs as [->|[->| ->]]; cbn [set_flags flag fold_left fst snd]; destruct f; try reflexivity; congruence.
    - rewrite <- X3, <- Hoo. destruct Hfs as [->|[->| ->]]; reflexivity. }
  assert (Z0 : forall oo, flag oo = flag o1 -> (forall f, f <> ShowProgress -> f <> UseCacheRead -> f <> UseCacheWrite -> flag oo f = flag o f) /\
    flag oo ShowProgress = (if flag o ProgressSpecified then flag o ShowProgress else negb r)).
  { intros oo ->. split; [intros f F1 _ _; apply X4; exact F1|exact X3]. }
  destruct (flag o UseCacheRead) eqn:R, (flag o UseCacheWrite) eqn:W; cbn [negb andb orb] in H |- *;
    try (injection H as <-; cbn [flag]; split; [exact (proj1 (Z0 o1 eq_refl))|split; [exact X3|split; congruence]]).
  destruct e as [e|]; [|injection H as <-; cbn [flag]; split; [exact (proj1 (Z0 o1 eq_refl))|split; [exact X3|split; congruence]]].
  destruct (teq e (L "r")) eqn:E1; [|destruct (teq e (L "w")) eqn:E2; [|destruct (teq e (L "rw")) eqn:E3; [|discriminate H]]].
  - injection H as <-. apply teq_eq in E1. edestruct Y as (Y1 & Y2); [| |split; [exact Y1|split; [exact Y2|]]]; [reflexivity|auto|].
    left. split; [exact E1|]. cbn [set_flags flag fold_left fst snd]. split; [reflexivity|]. exact X2.
  - injection H as <-. apply teq_eq in E2. edestruct Y as (Y1 & Y2); [| |split; [exact Y1|split; [exact Y2|]]]; [reflexivity|auto|].
    right. left. split; [exact E2|]. cbn [set_flags flag fold_left fst snd]. split; [exact X1|reflexivity].
  - injection H as <-. apply teq_eq in E3. edestruct Y as (Y1 & Y2); [| |split; [exact Y1|split; [exact Y2|]]]; [reflexivity|auto|].
    right. right. split; [exact E3|]. split; reflexivity.
Qed.

(** *** Numbers *)
Definition in_range (cores : Z) (o : opts) : Prop :=
  (threads o = cores \/ 0 <= threads o <= 256)%Z /\ (-128 <= cache_level o <= 12)%Z /\ (-128 <= dist_level o <= 12)%Z /\ (0 <= cache_trim o < 2 ^ 32)%Z.
Lemma single_range cores a o o1 : single a o = Done o1 -> in_range cores o -> in_range cores o1.
Proof.
  unfold single. destruct (kind_of a) as [fs|v|n|t|fs m| | |] eqn:Ek; try discriminate.
  - intro H. injection H as <-. auto.
  - destruct (n <=? 256)%Z eqn:E; [|discriminate]. intro H. injection H as <-. intros (H1 & H2). split; [|exact H2]. right. cbn [threads].
    apply Z.leb_le in E. split; [|exact E].
    unfold kind_of in Ek. destruct a as [|c a]; [discriminate Ek|]. destruct (Ascii.eqb c "-"); [|discriminate Ek].
    destruct (lookup table (c :: a)) as [k|] eqn:L1.
    { apply lookup_in in L1. destruct L1 as (nn & Hn & _). subst k. exfalso. cbn [In table] in Hn. repeat (destruct Hn as [Hn|Hn]; [discriminate Hn|]). exact Hn. }
    destruct (if starts_with (L "-j") (c :: a) then scan_u (skipn 2 (c :: a)) else None) as [z|] eqn:S1.
    { injection Ek as ->. destruct (starts_with _ _); [|discriminate S1]. unfold scan_u in S1. destruct (scan _); [|discriminate S1]. injection S1 as <-.
      apply Z.mod_pos_bound. lia. }
    destruct (lookup table2 (c :: a)) as [k|] eqn:L2.
    { apply lookup_in in L2. destruct L2 as (nn & Hn & _). subst k. exfalso. cbn [In table2] in Hn. repeat (destruct Hn as [Hn|Hn]; [discriminate Hn|]). exact Hn. }
    destruct (starts_with (L "-report") (c :: a)); [discriminate Ek|]. destruct (lookup table3 (c :: a)) as [k|] eqn:L3; [|discriminate Ek].
    apply lookup_in in L3. destruct L3 as (nn & Hn & _). subst k. exfalso. cbn [In table3] in Hn. repeat (destruct Hn as [Hn|Hn]; [discriminate Hn|]). exact Hn.
  - unfold take_report. destruct (tokenize "=" t) as [|x [|y r]].
    + intro H. injection H as <-. auto.
    + intro H. injection H as <-. auto.
    + destruct (_ || _); [|discriminate]. intro H. injection H as <-. auto.
  - intro H. injection H as <-. auto.
  - intro H. injection H as <-. auto.
Qed.
Lemma take_range cores v x o o1 t : take v (Some x) o = Some (o1, t) -> in_range cores o -> in_range cores o1.
Proof.
  intros H (R1 & R2 & R3 & R4). unfold in_range. destruct v; cbn [take] in H.
  - unfold scan_u in H. destruct (scan x); [|discriminate H]. cbn [option_map] in H. injection H as <- <-. cbn.
    split; [exact R1|]. split; [exact R2|]. split; [exact R3|]. apply Z.mod_pos_bound. lia.
  - destruct (scan_i x); [|discriminate H]. destruct (_ || _) eqn:E; [discriminate H|]. injection H as <- <-. cbn.
    apply orb_false_iff in E. rewrite !Z.ltb_ge in E. auto.
  - destruct (scan_i x); [|discriminate H]. destruct (_ || _) eqn:E; [discriminate H|]. injection H as <- <-. cbn.
    apply orb_false_iff in E. rewrite !Z.ltb_ge in E. auto.
  - injection H as <- <-. auto.
  - injection H as <- <-. auto.
  - destruct (tokenize ";" x); [discriminate H|]. injection H as <- <-. auto.
Qed.
Lemma wsl_range cores l : forall first o o', wrapper o = WSL -> process first l o = Done o' -> in_range cores o -> in_range cores o'.
Proof.
  induction l as [|a l IH]; intros first o o' Hw; cbn [process].
  - intro H. injection H as <-. auto.
  - rewrite Hw. intros H R. eapply IH; [|exact H|exact R]. exact Hw.
Qed.
Lemma ranges cores n : forall l, List.length l <= n -> forall first o o',
  process first l o = Done o' -> in_range cores o -> in_range cores o'.
Proof.
  induction n as [|n IH]; intros l Hl first o o' Hp Hr.
  - destruct l; [|cbn in Hl; lia]. cbn [process] in Hp. injection Hp as <-. exact Hr.
  - destruct l as [|a l]; [cbn [process] in Hp; injection Hp as <-; exact Hr|]. cbn [List.length] in Hl.
    assert (Dw : wrapper o = WSL \/ wrapper o <> WSL) by (destruct (wrapper o); (left; reflexivity) || (right; discriminate)).
    destruct Dw as [Hw|Hw]; [eapply wsl_range; eassumption|].
    destruct (wsl_here a o) eqn:Hh.
    + unfold wsl_here in Hh. cbn [process] in Hp. destruct (wrapper o) eqn:Ew; try discriminate Hh. rewrite Hh in Hp. destruct first; [|discriminate Hp].
      destruct l as [|p l]; [discriminate Hp|]. eapply wsl_range; [|exact Hp|]; [reflexivity|exact Hr].
    + destruct (kind_dec a) as [(v & Hv)|Hno].
      * destruct l as [|x l].
        -- rewrite (process_dangling _ _ _ _ Hw Hh Hv) in Hp. destruct v; cbn [take] in Hp; try discriminate Hp.
           destruct (sources (add a o)); [discriminate Hp|]. injection Hp as <-. exact Hr.
        -- rewrite (process_taken _ _ _ _ _ _ Hw Hh Hv) in Hp.
           destruct (take v (Some x) (add a o)) as [(o1 & t)|] eqn:E; [|discriminate Hp].
           eapply (IH l); [cbn [List.length] in Hl; lia|exact Hp|]. exact (take_range cores _ _ _ _ _ E Hr).
      * rewrite (process_single _ _ _ _ Hw Hh Hno) in Hp. destruct (single a o) as [o1| |] eqn:E; try discriminate Hp. cbn [and_then] in Hp.
        eapply (IH l); [lia|exact Hp|]. eapply single_range; eassumption.
Qed.
Lemma finish_range r e o o' cores : finish r e o = Done o' -> in_range cores o -> in_range cores o'.
Proof.
  unfold finish. destruct (flag o ProgressSpecified); (destruct (_ && _)%bool; [|intro H; injection H as <-; auto]);
    (destruct e as [e|]; [|intro H; injection H as <-; auto]);
    (destruct (teq e (L "r")); [intro H; injection H as <-; auto|]);
    (destruct (teq e (L "w")); [intro H; injection H as <-; auto|]);
    (destruct (teq e (L "rw")); [intro H; injection H as <-; auto|discriminate]).
Qed.

(** The options survive the way to other processes, for C92. *)
From Coq Require Import String Ascii List Bool Arith NArith ZArith Lia.
From Verif Require Import M_Path M_Args M_Names M_Drv P_Drv M_Cli S_Cli P_Cli.
Import ListNotations.
Local Open Scope list_scope.

Lemma wsl_stays l : forall first o o', wrapper o = WSL -> process first l o = Done o' -> wrapper o' = WSL.
Proof.
  induction l as [|a l IH]; intros first o o' Hw; cbn [process].
  - intro H. injection H as <-. exact Hw.
  - rewrite Hw. intro H. eapply IH; [|exact H]. exact Hw.
Qed.

(** What one argument that is not an option with a value does. *)
Definition single (a : str) (o : opts) : result :=
  match kind_of a with
  | Target => Done (let o1 := add ([quote] ++ a ++ [quote]) o in
                    Opts (flag o) (cache_trim o) (cache_level o) (dist_level o) (threads o) (config o) (db o) (report o) (sources o)
                         (targets o ++ [a]) (wrapper o) (wsl_path o) (args o1))
  | Sets fs => Done (set_flags fs (add a o))
  | Wrap fs m => Done (set_mode m (set_flags fs (add a o)))
  | Jobs n => if (n <=? 256)%Z
              then Done (let o1 := add a o in
                         Opts (flag o1) (cache_trim o1) (cache_level o1) (dist_level o1) n (config o1) (db o1) (report o1)
                              (sources o1) (targets o1) (wrapper o1) (wsl_path o1) (args o1))
              else Error
  | Report t => match take_report t (add a o) with Some o1 => Done o1 | None => Error end
  | Quit => Quits
  | _ => Error
  end.
Definition and_then (r : result) (k : opts -> result) : result := match r with Done o => k o | x => x end.

Definition wsl_here (a : str) (o : opts) : bool := (match wrapper o with NoWrapper => true | _ => false end && teq a (L "-wsl"))%bool.

Lemma process_single first a l o : wrapper o <> WSL -> wsl_here a o = false -> (forall v, kind_of a <> Takes v) ->
  process first (a :: l) o = and_then (single a o) (process false l).
Proof.
  intros Hw Hh Hk. unfold wsl_here in Hh. cbn [process]. unfold single.
  destruct (wrapper o) eqn:E; try congruence; rewrite Hh;
    (destruct (kind_of a) as [fs|v|n|t|fs m| | |] eqn:Ek; try reflexivity; [destruct (Hk v eq_refl)|destruct (n <=? 256)%Z; reflexivity|destruct (take_report t (add a o)); reflexivity]).
Qed.
Lemma process_taken first a x l o v : wrapper o <> WSL -> wsl_here a o = false -> kind_of a = Takes v ->
  process first (a :: x :: l) o =
  match take v (Some x) (add a o) with Some (o1, t) => process false l (set_args (args o1 ++ t) o1) | None => Error end.
Proof.
  intros Hw Hh Hk. unfold wsl_here in Hh. cbn [process]. destruct (wrapper o) eqn:E; try congruence; rewrite Hh, Hk; reflexivity.
Qed.
Lemma process_dangling first a o v : wrapper o <> WSL -> wsl_here a o = false -> kind_of a = Takes v ->
  process first [a] o =
  match take v None (add a o) with Some (o1, t) => Done (set_args (args o1 ++ t) o1) | None => Error end.
Proof.
  intros Hw Hh Hk. unfold wsl_here in Hh. cbn [process]. destruct (wrapper o) eqn:E; try congruence; rewrite Hh, Hk; reflexivity.
Qed.
Lemma no_wsl first a l o o' : process first (a :: l) o = Done o' -> wrapper o' <> WSL -> wrapper o <> WSL /\ wsl_here a o = false.
Proof.
  intros H Hn. split.
  - intro Hw. apply Hn. eapply wsl_stays; [exact Hw|exact H].
  - destruct (wsl_here a o) eqn:E; [|reflexivity]. exfalso. unfold wsl_here in E. cbn [process] in H.
    destruct (wrapper o) eqn:Ew; try discriminate E. rewrite E in H. destruct first; [|discriminate H].
    destruct l as [|p l]; [discriminate H|]. apply Hn. eapply wsl_stays; [|exact H]. reflexivity.
Qed.

Lemma single_args a o o1 : single a o = Done o1 -> args o1 = args (add (match kind_of a with Target => [quote] ++ a ++ [quote] | _ => a end) o) /\
  targets o1 = targets o ++ (match kind_of a with Target => [a] | _ => [] end) /\ config o1 = config o /\ db o1 = db o.
Proof.
  unfold single. destruct (kind_of a) as [fs|v|n|t|fs m| | |]; try discriminate.
  - intro H. injection H as <-. cbn. rewrite app_nil_r. auto.
  - destruct (n <=? 256)%Z; [|discriminate]. intro H. injection H as <-. cbn. rewrite app_nil_r. auto.
  - unfold take_report. destruct (tokenize "=" t) as [|x [|y r]].
    + intro H. injection H as <-. cbn. rewrite app_nil_r. auto.
    + intro H. injection H as <-. cbn. rewrite app_nil_r. auto.
    + destruct (_ || _); [|discriminate]. intro H. injection H as <-. cbn. rewrite app_nil_r. auto.
  - intro H. injection H as <-. cbn. rewrite app_nil_r. auto.
  - intro H. injection H as <-. cbn. auto.
Qed.
Lemma take_args v x o o1 t : take v (Some x) o = Some (o1, t) ->
  args o1 = args o /\ t = L " " ++ (if is_path v then [quote] ++ x ++ [quote] else x) /\ targets o1 = targets o /\
  config o1 = (match v with Config => x | _ => config o end) /\ db o1 = (match v with DBFile => x | _ => db o end).
Proof.
  destruct v; cbn [take is_path].
  - destruct (scan_u x); [|discriminate]. cbn [option_map]. intro H. injection H as <- <-. auto 10.
  - destruct (scan_i x); [|discriminate]. destruct (_ || _); [discriminate|]. intro H. injection H as <- <-. auto 10.
  - destruct (scan_i x); [|discriminate]. destruct (_ || _); [discriminate|]. intro H. injection H as <- <-. auto 10.
  - intro H. injection H as <- <-. auto 10.
  - intro H. injection H as <- <-. auto 10.
  - destruct (tokenize ";" x); [discriminate|]. intro H. injection H as <- <-. auto 10.
Qed.

Lemma keeps_eq ps o o' : args o = args o' -> keeps ps o -> keeps ps o'.
Proof. intros E (H1 & H2). split; [exact H1|congruence]. Qed.

Lemma kind_dec a : (exists v, kind_of a = Takes v) \/ (forall v, kind_of a <> Takes v).
Proof. destruct (kind_of a); [right; discriminate|left; eauto|right; discriminate..]. Qed.

Lemma reads n : forall l, List.length l <= n -> forall first o o' ps,
  process first l o = Done o' -> wrapper o' <> WSL -> tame l -> keeps ps o ->
  exists ps', keeps (ps ++ ps') o' /\ map snd ps' = l /\
    forall b, process first (l ++ b) o = process (match l with [] => first | _ => false end) b o'.
Proof.
  induction n as [|n IH]; intros l Hl first o o' ps Hp Hn Ht Hk.
  - destruct l; [|cbn in Hl; lia]. cbn [process] in Hp. injection Hp as <-. exists []. rewrite app_nil_r. auto.
  - destruct l as [|a l].
    { cbn [process] in Hp. injection Hp as <-. exists []. rewrite app_nil_r. auto. }
    cbn [List.length] in Hl. destruct (no_wsl _ _ _ _ _ Hp Hn) as (Hw & Hh). cbn [tame] in Ht.
    destruct (kind_dec a) as [(v & Hv)|Hno].
    + destruct (kind_takes a v Hv) as (K1 & K2 & K3). rewrite K1, K2, K3 in Ht. destruct Ht as (Wa & Ht).
      destruct l as [|x l]; [destruct (is_path v); destruct Ht|].
      assert (Hx : okp (is_path v, x) /\ tame l) by (unfold okp; cbn [fst snd]; destruct (is_path v); exact Ht). destruct Hx as (Hx & Htl).
      rewrite (process_taken _ _ _ _ _ _ Hw Hh Hv) in Hp.
      destruct (take v (Some x) (add a o)) as [(o1 & t)|] eqn:E; [|discriminate Hp].
      destruct (take_args _ _ _ _ _ E) as (A1 & A2 & _).
      assert (Hk1 : keeps ((ps ++ [(false, a)]) ++ [(is_path v, x)]) (set_args (args o1 ++ t) o1)).
      { apply (keeps_eq _ (add (ptext (is_path v, x)) o1)).
        - unfold add. cbn [args set_args]. rewrite A2. unfold sep. rewrite A1. cbn [add set_args args].
          destruct (args o ++ sep o ++ a) eqn:Ea; [|reflexivity]. apply app_eq_nil in Ea. destruct Ea as (_ & Ea). apply app_eq_nil in Ea.
          destruct Wa as (Wa & _). tauto.
        - apply keeps_add; [|exact Hx|reflexivity]. apply (keeps_eq _ (add a o)); [symmetry; exact A1|].
          apply keeps_add; [exact Hk|exact Wa|reflexivity]. }
      destruct (IH l ltac:(cbn [List.length] in Hl; lia) _ _ _ _ Hp Hn Htl Hk1) as (ps' & I1 & I2 & I3).
      exists ([(false, a); (is_path v, x)] ++ ps'). split; [|split].
      * rewrite <- !app_assoc in I1. exact I1.
      * cbn [app map snd]. rewrite I2. reflexivity.
      * intro b. cbn [app]. rewrite (process_taken _ _ _ _ _ _ Hw Hh Hv), E, I3. destruct l; reflexivity.
    + destruct (kind_other a Hno) as (K1 & K2 & K3). rewrite K1, K2, K3 in Ht.
      rewrite (process_single _ _ _ _ Hw Hh Hno) in Hp.
      destruct (single a o) as [o1| |] eqn:E; try discriminate Hp. cbn [and_then] in Hp.
      destruct (single_args _ _ _ E) as (A1 & _).
      assert (X : exists q, okp (q, a) /\ tame l /\ ptext (q, a) = (match kind_of a with Target => [quote] ++ a ++ [quote] | _ => a end)).
      { destruct (kind_of a); try (exists false; unfold okp, ptext; cbn [fst snd]; tauto). exists true. unfold okp, ptext. cbn [fst snd]. tauto. }
      destruct X as (q & Hq & Htl & Hqt).
      assert (Hk1 : keeps (ps ++ [(q, a)]) o1).
      { apply (keeps_eq _ _ _ (eq_sym A1)). apply keeps_add; auto. }
      destruct (IH l ltac:(lia) _ _ _ _ Hp Hn Htl Hk1) as (ps' & I1 & I2 & I3).
      exists ((q, a) :: ps'). split; [|split].
      * rewrite <- app_assoc in I1. exact I1.
      * cbn [map snd]. rewrite I2. reflexivity.
      * intro b. cbn [app]. rewrite (process_single _ _ _ _ Hw Hh Hno), E. cbn [and_then]. rewrite I3. destruct l; reflexivity.
Qed.

(** Targets and values, without more ado. *)
Lemma takes_none a v : kind_of a = Takes v -> (takes_path a || takes_word a)%bool = true.
Proof. intro H. destruct (kind_takes a v H) as (_ & -> & ->). destruct (is_path v); reflexivity. Qed.
Lemma name_dec (a b : str) : {a = b} + {a <> b}. Proof. apply list_eq_dec, ascii_dec. Qed.

Lemma values n : forall l, List.length l <= n -> forall first o o',
  process first l o = Done o' -> wrapper o' <> WSL ->
  targets o' = targets o ++ named l /\ config o' = last_value "-config" l (config o) /\ db o' = last_value "-dbfile" l (db o).
Proof.
  induction n as [|n IH]; intros l Hl first o o' Hp Hn.
  - destruct l; [|cbn in Hl; lia]. cbn [process] in Hp. injection Hp as <-. cbn. rewrite app_nil_r. auto.
  - destruct l as [|a l].
    { cbn [process] in Hp. injection Hp as <-. cbn. rewrite app_nil_r. auto. }
    cbn [List.length] in Hl. destruct (no_wsl _ _ _ _ _ Hp Hn) as (Hw & Hh). cbn [named last_value].
    destruct (kind_dec a) as [(v & Hv)|Hno].
    + rewrite (takes_none a v Hv). pose proof (takes_name a v Hv) as Hnm. destruct l as [|x l].
      * rewrite (process_dangling _ _ _ _ Hw Hh Hv) in Hp. destruct v; cbn [take] in Hp; try discriminate Hp.
        destruct (sources (add a o)); [discriminate Hp|]. injection Hp as <-. cbn. rewrite app_nil_r. auto.
      * rewrite (process_taken _ _ _ _ _ _ Hw Hh Hv) in Hp.
        destruct (take v (Some x) (add a o)) as [(o1 & t)|] eqn:E; [|discriminate Hp].
        destruct (take_args _ _ _ _ _ E) as (_ & _ & A3 & A4 & A5).
        destruct (IH l ltac:(cbn [List.length] in Hl; lia) _ _ _ Hp Hn) as (I1 & I2 & I3). rewrite I1, I2, I3.
        cbn [set_args targets config db]. rewrite A3, A4, A5. cbn [add set_args targets config db].
        split; [reflexivity|]. destruct v; cbn [valued_name] in Hnm; subst a; split; reflexivity.
    + destruct (kind_other a Hno) as (K1 & K2 & K3). rewrite K1, K2, K3. cbn [orb].
      rewrite (process_single _ _ _ _ Hw Hh Hno) in Hp.
      destruct (single a o) as [o1| |] eqn:E; try discriminate Hp. cbn [and_then] in Hp.
      destruct (single_args _ _ _ E) as (_ & A2 & A3 & A4).
      destruct (IH l ltac:(lia) _ _ _ Hp Hn) as (I1 & I2 & I3). rewrite I1, I2, I3, A2, A3, A4. rewrite <- app_assoc.
      split; [|split; reflexivity]. destruct (kind_of a); reflexivity.
Qed.

(** *** The end of reading, and the chain of processes *)
Lemma finish_mode r e o o' m a : finish r e o = Done o' -> finish r e (set_mode m (set_args a o)) = Done (set_mode m (set_args a o')).
Proof.
  unfold finish. cbn [set_mode set_args flag]. destruct (flag o ProgressSpecified); cbn [set_flags flag fold_left].
  - destruct (_ && _)%bool; [|intro H; injection H as <-; reflexivity].
    destruct e as [e|]; [|intro H; injection H as <-; reflexivity].
    destruct (teq e (L "r")); [intro H; injection H as <-; reflexivity|].
    destruct (teq e (L "w")); [intro H; injection H as <-; reflexivity|].
    destruct (teq e (L "rw")); [intro H; injection H as <-; reflexivity|discriminate].
  - destruct (_ && _)%bool; [|intro H; injection H as <-; reflexivity].
    destruct e as [e|]; [|intro H; injection H as <-; reflexivity].
    destruct (teq e (L "r")); [intro H; injection H as <-; reflexivity|].
    destruct (teq e (L "w")); [intro H; injection H as <-; reflexivity|].
    destruct (teq e (L "rw")); [intro H; injection H as <-; reflexivity|discriminate].
Qed.
Lemma finish_same r e o o' : finish r e o = Done o' -> args o' = args o /\ wrapper o' = wrapper o /\
  targets o' = (match targets o with [] => [L "all"] | t => t end) /\ config o' = config o /\ db o' = db o.
Proof.
  unfold finish. destruct (flag o ProgressSpecified); (destruct (_ && _)%bool; [|intro H; injection H as <-; auto]);
    (destruct e as [e|]; [|intro H; injection H as <-; auto]);
    (destruct (teq e (L "r")); [intro H; injection H as <-; auto|]);
    (destruct (teq e (L "w")); [intro H; injection H as <-; auto|]);
    (destruct (teq e (L "rw")); [intro H; injection H as <-; auto|discriminate]).
Qed.

Lemma same_mode m a o : same_options (set_mode m (set_args a o)) o.
Proof. unfold same_options. cbn. auto 20. Qed.

(** One link of the chain. *)
Lemma passed cores r e l o o1 m x : process true l (initial cores) = Done o1 -> finish r e o1 = Done o -> wrapper o <> WSL -> tame l ->
  kind_of x = Wrap [] m -> word x ->
  process true (l ++ [x]) (initial cores) = Done (set_mode m (add x o1)) /\
  command_line cores r e (win_split (args o ++ L " " ++ x)) = Done (set_mode m (set_args (args (add x o1)) o)) /\
  tame (l ++ [x]) /\ (l <> [] -> args (add x o1) = args o ++ L " " ++ x).
Proof.
  intros Hp Hf Hw Ht Hx Wx. destruct (finish_same _ _ _ _ Hf) as (F1 & F2 & _).
  assert (Hw1 : wrapper o1 <> WSL) by congruence.
  destruct (reads _ l (le_n _) true (initial cores) o1 [] Hp Hw1 Ht) as (ps & (R1 & R2) & R3 & R4); [split; [constructor|reflexivity]|].
  cbn [app] in R1, R2.
  assert (Hnx : forall v, kind_of x <> Takes v) by (rewrite Hx; discriminate).
  assert (Hh : wsl_here x o1 = false).
  { unfold wsl_here. destruct (teq x (L "-wsl")) eqn:E; [|apply andb_false_r]. apply teq_eq in E. subst x. discriminate Hx. }
  assert (E1 : process true (l ++ [x]) (initial cores) = Done (set_mode m (add x o1))).
  { rewrite R4. rewrite (process_single _ _ _ _ Hw1 Hh Hnx). unfold single. rewrite Hx. reflexivity. }
  split; [exact E1|].
  assert (Hk : keeps (ps ++ [(false, x)]) (add x o1)) by (apply keeps_add; [split; assumption|exact Wx|reflexivity]).
  assert (Hl : l <> [] -> args (add x o1) = args o ++ L " " ++ x).
  { intro Hne. unfold add. cbn [set_args args]. rewrite F1. unfold sep. rewrite R2. destruct (joined ps) eqn:Ej; [|reflexivity].
    apply joined_nil in Ej; [|exact R1]. subst ps. cbn in R3. congruence. }
  split; [|split; [|exact Hl]].
  - assert (Es : win_split (args o ++ L " " ++ x) = l ++ [x]).
    { destruct l as [|a l].
      - destruct ps; [|discriminate R3]. rewrite F1, R2. cbn [joined app]. change (L " ") with [" "%char]. cbn [app].
        change (win_split (" "%char :: x)) with (win_split x). change x with (joined [(false, x)]). apply split_joined. constructor; [exact Wx|constructor].
      - rewrite <- Hl by discriminate. destruct Hk as (Hk1 & Hk2). rewrite Hk2. etransitivity; [apply split_joined; exact Hk1|].
        etransitivity; [apply map_app|]. exact (f_equal (fun z => z ++ [x]) R3). }
    rewrite Es. unfold command_line. rewrite E1. apply finish_mode with (m := m) (a := args (add x o1)) in Hf. exact Hf.
  - clear - Ht Hnx Wx Hx. destruct (kind_other x Hnx) as (K1 & K2 & K3). rewrite Hx in K3.
    revert Ht. remember (List.length l) as n eqn:Hn. assert (Hle : List.length l <= n) by lia. clear Hn. revert l Hle.
    induction n as [|n IH]; intros l Hle Ht.
    + destruct l; [|cbn in Hle; lia]. cbn [app tame]. rewrite K1, K2, K3. auto.
    + destruct l as [|a l]; [cbn [app tame]; rewrite K1, K2, K3; auto|]. cbn [app tame List.length] in *.
      destruct (is_option a); [|destruct Ht; split; [assumption|apply IH; [lia|assumption]]].
      destruct Ht as (Wa & Ht). split; [exact Wa|].
      destruct (takes_path a); [|destruct (takes_word a)].
      * destruct l as [|y l]; [destruct Ht|]. destruct Ht as (T1 & T2). cbn [app]. split; [exact T1|]. apply IH; [cbn in Hle; lia|exact T2].
      * destruct l as [|y l]; [destruct Ht|]. destruct Ht as (T1 & T2). cbn [app]. split; [exact T1|]. apply IH; [cbn in Hle; lia|exact T2].
      * apply IH; [lia|exact Ht].
Qed.

(** The conditions as computations, for cases. *)
Definition inb (c : ascii) (a : str) : bool := existsb (Ascii.eqb c) a.
Lemma inb_not c a : inb c a = false -> ~ In c a.
Proof.
  unfold inb. intros H X. assert (E : existsb (Ascii.eqb c) a = true) by (apply existsb_exists; exists c; split; [exact X|apply Ascii.eqb_refl]).
  congruence.
Qed.
Definition wordb (a : str) : bool :=
  match a with [] => false | _ => true end && negb (inb " " a) && negb (inb (ascii_of_nat 9) a) && negb (inb (ascii_of_nat 34) a).
Definition textb (a : str) : bool := negb (inb (ascii_of_nat 34) a) && negb (match rev a with c :: _ => Ascii.eqb c (ascii_of_nat 92) | [] => false end).
Lemma wordb_word a : wordb a = true -> word a.
Proof.
  unfold wordb, word. rewrite !andb_true_iff, !negb_true_iff. intros (((H1 & H2) & H3) & H4).
  split; [destruct a; discriminate|]. split; [|split]; apply inb_not; assumption.
Qed.
Lemma textb_text a : textb a = true -> text a.
Proof.
  unfold textb, text. rewrite andb_true_iff, !negb_true_iff. intros (H1 & H2). split; [apply inb_not; assumption|].
  intros b ->. rewrite rev_app_distr in H2. discriminate H2.
Qed.
Fixpoint tameb (l : list str) : bool :=
  match l with
  | [] => true
  | a :: r =>
      if is_option a
      then wordb a &&
           (if takes_path a then match r with v :: r' => textb v && tameb r' | [] => false end
            else if takes_word a then match r with v :: r' => wordb v && tameb r' | [] => false end
            else tameb r)
      else textb a && tameb r
  end.
Lemma tameb_tame n : forall l, List.length l <= n -> tameb l = true -> tame l.
Proof.
  induction n as [|n IH]; intros l Hl; (destruct l as [|a l]; [cbn; auto|]); cbn [List.length] in Hl; [lia|].
  cbn [tameb tame]. destruct (is_option a).
  - rewrite andb_true_iff. intros (H1 & H2). split; [apply wordb_word; exact H1|].
    destruct (takes_path a); [|destruct (takes_word a)].
    + destruct l as [|v l]; [discriminate|]. apply andb_true_iff in H2. destruct H2. split; [apply textb_text; assumption|]. apply IH; [cbn in Hl; lia|assumption].
    + destruct l as [|v l]; [discriminate|]. apply andb_true_iff in H2. destruct H2. split; [apply wordb_word; assumption|]. apply IH; [cbn in Hl; lia|assumption].
    + apply IH; [lia|assumption].
  - rewrite andb_true_iff. intros (H1 & H2). split; [apply textb_text; exact H1|apply IH; [lia|exact H2]].
Qed.

(** C92: the process that builds gets the options of the command line. *)
From Coq Require Import String Ascii List Bool Arith NArith ZArith Lia.
From Verif Require Import M_Path M_Args M_Names M_Drv M_Cli S_Cli P_Cli P_Cli2 P_Cli3.
Import ListNotations.
Local Open Scope list_scope.

(** When FBuild is told to run under a wrapper (-ide, -vs, -wrapper), it
    starts an intermediate process, which starts the one that builds.  Both
    read their command lines as Windows gives them, and have the options that
    the user gave. *)
Theorem C92_forwarded : forall cores redirected env l o,
  command_line cores redirected env l = Done o -> wrapper o = MainProcess -> tame l ->
  exists o1 o2,
    command_line cores redirected env (win_split (to_intermediate o)) = Done o1 /\ wrapper o1 = Intermediate /\ same_options o1 o /\
    command_line cores redirected env (win_split (to_final o1)) = Done o2 /\ wrapper o2 = Final /\ same_options o2 o.
Proof.
  intros cores r e l o H Hm Ht. unfold command_line in H.
  destruct (process true l (initial cores)) as [o0| |] eqn:Hp; try discriminate H.
  assert (Hl : l <> []).
  { intros ->. cbn [process] in Hp. injection Hp as <-. destruct (finish_same _ _ _ _ H) as (_ & F & _). rewrite Hm in F. discriminate F. }
  assert (W1 : word (L "-wrapperintermediate")) by (repeat split; [discriminate|cbn; intuition discriminate..]).
  assert (W2 : word (L "-wrapperfinal")) by (repeat split; [discriminate|cbn; intuition discriminate..]).
  destruct (passed cores r e l o o0 Intermediate (L "-wrapperintermediate") Hp H ltac:(congruence) Ht eq_refl W1) as (A1 & A2 & A3 & A4).
  set (o1 := set_mode Intermediate (set_args (args (add (L "-wrapperintermediate") o0)) o)) in *.
  assert (F1 : finish r e (set_mode Intermediate (add (L "-wrapperintermediate") o0)) = Done o1) by (exact (finish_mode _ _ _ _ _ _ H)).
  destruct (passed cores r e _ o1 _ Final (L "-wrapperfinal") A1 F1 ltac:(discriminate) A3 eq_refl W2) as (B1 & B2 & B3 & B4).
  exists o1, (set_mode Final (set_args (args (add (L "-wrapperfinal") (set_mode Intermediate (add (L "-wrapperintermediate") o0)))) o1)).
  split; [exact A2|]. split; [reflexivity|]. split; [apply same_mode|]. split; [exact B2|]. split; [reflexivity|].
  unfold same_options. cbn. auto 20.
Qed.
Print Assumptions C92_forwarded.

(** The targets are the arguments that are neither options nor values of
    options, in their order, or "all" if there are none; of values given
    twice the last counts. *)
Theorem C92_values : forall cores redirected env l o,
  command_line cores redirected env l = Done o -> wrapper o <> WSL ->
  targets o = (match named l with [] => [L "all"] | t => t end) /\
  config o = last_value "-config" l [] /\ db o = last_value "-dbfile" l [].
Proof.
  intros cores r e l o H Hm. unfold command_line in H.
  destruct (process true l (initial cores)) as [o0| |] eqn:Hp; try discriminate H.
  destruct (finish_same _ _ _ _ H) as (_ & F2 & F3 & F4 & F5).
  destruct (values _ l (le_n _) _ _ _ Hp ltac:(congruence)) as (V1 & V2 & V3).
  rewrite F3, F4, F5, V1, V2, V3. cbn. auto.
Qed.
Print Assumptions C92_values.

(** Each switch is as the last option that says something about it; the bar
    of progress, if no option does, depends on the terminal; the cache is
    used as FASTBUILD_CACHE_MODE says if no option says that it is used. *)
Theorem C92_settings : forall cores redirected env l o,
  command_line cores redirected env l = Done o -> wrapper o <> WSL ->
  let given f := setting f l (by_default f) in
  (forall f, f <> ShowProgress -> f <> UseCacheRead -> f <> UseCacheWrite -> flag o f = given f) /\
  flag o ShowProgress = (if given ProgressSpecified then given ShowProgress else negb redirected) /\
  (if given UseCacheRead || given UseCacheWrite
   then flag o UseCacheRead = given UseCacheRead /\ flag o UseCacheWrite = given UseCacheWrite
   else match env with
        | None => flag o UseCacheRead = false /\ flag o UseCacheWrite = false
        | Some m => (m = L "r" /\ flag o UseCacheRead = true /\ flag o UseCacheWrite = false) \/
                    (m = L "w" /\ flag o UseCacheRead = false /\ flag o UseCacheWrite = true) \/
                    (m = L "rw" /\ flag o UseCacheRead = true /\ flag o UseCacheWrite = true)
        end).
Proof.
  intros cores r e l o H Hm given. unfold command_line in H.
  destruct (process true l (initial cores)) as [o0| |] eqn:Hp; try discriminate H.
  destruct (finish_same _ _ _ _ H) as (_ & F2 & _).
  assert (G : forall f, flag o0 f = given f).
  { intro f. rewrite (settings_read f _ l (le_n _) _ _ _ Hp ltac:(congruence)). unfold given. f_equal. destruct f; reflexivity. }
  pose proof (finish_flags _ _ _ _ H) as F. rewrite !G in F. destruct F as (F1 & F). split; [|exact F].
  intros f A B C. rewrite F1 by assumption. apply G.
Qed.
Print Assumptions C92_settings.

(** Numbers are in their ranges, whatever was written. *)
Theorem C92_ranges : forall cores redirected env l o, command_line cores redirected env l = Done o ->
  (threads o = cores \/ 0 <= threads o <= 256)%Z /\ (-128 <= cache_level o <= 12)%Z /\ (-128 <= dist_level o <= 12)%Z /\
  (0 <= cache_trim o < 2 ^ 32)%Z.
Proof.
  intros cores r e l o H. unfold command_line in H.
  destruct (process true l (initial cores)) as [o0| |] eqn:Hp; try discriminate H.
  apply (finish_range _ _ _ _ cores H). apply (ranges cores _ l (le_n _) _ _ _ Hp). repeat split; try (left; reflexivity); vm_compute; congruence.
Qed.
Print Assumptions C92_ranges.

(** *** Cases *)
Definition words := map L.
Example C92_case :
  let l := words ["-ide"; "-config"; "C:\my files\fbuild.bff"; "-j4"; "My Target"; "-sourcefile"; "a.cpp;b.cpp"; "-config"; "x y.bff"; "-cachetrim"; "10"; "B"]%string in
  tame l /\ 
  match command_line 8 true None l with
  | Done o => Some (wrapper o, threads o, cache_trim o, sources o, targets o, config o)
  | _ => None
  end = Some (MainProcess, 4%Z, 10%Z, words ["a.cpp"; "b.cpp"]%string, words ["My Target"; "B"]%string, L "x y.bff").
Proof.
  cbv zeta. split.
  - apply (tameb_tame _ _ (le_n _)). vm_compute. reflexivity.
  - vm_compute. reflexivity.
Qed.

Example C92_case2 :
  match command_line 8 true (Some (L "rw")) (words ["-quiet"; "-dotfull"; "-dot"; "-forceremote"; "-verbose"; "-dbfile"; "-clean"]%string) with
  | Done o => Some (flag o ShowVerbose, flag o ShowCommandSummary, flag o GenerateDotGraphFull, flag o AllowLocalRace, flag o ForceCleanBuild, flag o UseCacheWrite)
  | _ => None
  end = Some (true, false, false, false, false, true).
Proof. vm_compute. reflexivity. Qed.

(** *** What does not hold without conditions *)
Definition passes (l : list str) : Prop :=
  forall o, command_line 8 true None l = Done o -> wrapper o = MainProcess ->
  exists o1, command_line 8 true None (win_split (to_intermediate o)) = Done o1 /\ wrapper o1 = Intermediate /\ same_options o1 o.

(** What becomes of the source files and of the place in the chain; None if
    the first process does not start others. *)
Definition arrives (l : list str) : option (bool * bool) :=
  match command_line 8 true None l with
  | Done o =>
      match wrapper o with
      | MainProcess =>
          Some match command_line 8 true None (win_split (to_intermediate o)) with
               | Done o1 => (match wrapper o1 with Intermediate => true | _ => false end,
                             if list_eq_dec (list_eq_dec ascii_dec) (sources o1) (sources o) then true else false)
               | _ => (false, false)
               end
      | _ => None
      end
  | _ => None
  end.
Lemma passes_arrives l r : passes l -> arrives l = Some r -> r = (true, true).
Proof.
  unfold passes, arrives. destruct (command_line 8 true None l) as [o| |]; try discriminate. intro H. specialize (H o eq_refl).
  destruct (wrapper o); try discriminate. destruct (H eq_refl) as (o1 & E & H1 & (_ & _ & _ & _ & _ & _ & _ & _ & S & _)).
  rewrite E, H1, S. destruct (list_eq_dec _ _ _); [|congruence]. intro X. injection X as <-. reflexivity.
Qed.

(** A source file with a space in its name: it is not put between quotes, as
    the config file and the targets are. *)
Theorem C92_sourcefile_refuted : ~ (forall l, (forall a, In a l -> ~ In (ascii_of_nat 34) a /\ forall b, a <> b ++ [ascii_of_nat 92]) -> passes l).
Proof.
  intro H. specialize (H (words ["-ide"; "-sourcefile"; "my file.cpp"]%string)).
  assert (P : passes (words ["-ide"; "-sourcefile"; "my file.cpp"]%string)).
  { apply H. intros a [<-|[<-|[<-|[]]]]; apply textb_text; vm_compute; reflexivity. }
  assert (E : arrives (words ["-ide"; "-sourcefile"; "my file.cpp"]%string) = Some (true, false)) by (vm_compute; reflexivity).
  discriminate (passes_arrives _ _ P E).
Qed.
Print Assumptions C92_sourcefile_refuted.

(** A target or path that ends in a backslash: the quote after it is not the
    end of the argument. *)
Theorem C92_backslash_refuted : ~ (forall l, (forall a, In a l -> ~ In " "%char a /\ ~ In (ascii_of_nat 34) a) -> passes l).
Proof.
  intro H. assert (P : passes (words ["-ide"; "out\"; "-clean"]%string)).
  { apply H. intros a [<-|[<-|[<-|[]]]]; split; apply inb_not; vm_compute; reflexivity. }
  assert (E : arrives (words ["-ide"; "out\"; "-clean"]%string) = Some (false, true)) by (vm_compute; reflexivity).
  discriminate (passes_arrives _ _ P E).
Qed.
Print Assumptions C92_backslash_refuted.

(** -sourcefile at the end, without a file: it is accepted if there was one
    before, and then takes what the wrapper adds; the process that was to be
    the intermediate one takes itself for the first. *)
Theorem C92_dangling_refuted : ~ (forall l, Forall word l -> passes l).
Proof.
  intro H. assert (P : passes (words ["-ide"; "-sourcefile"; "a.cpp"; "-sourcefile"]%string)).
  { apply H. repeat (constructor; [apply wordb_word; vm_compute; reflexivity|]). constructor. }
  assert (E : arrives (words ["-ide"; "-sourcefile"; "a.cpp"; "-sourcefile"]%string) = Some (false, false)) by (vm_compute; reflexivity).
  discriminate (passes_arrives _ _ P E).
Qed.
Print Assumptions C92_dangling_refuted.

(** What is given to WSL is never put between quotes. *)
Theorem C92_wsl_refuted :
  ~ (forall p l o, command_line 8 true None (L "-wsl" :: p :: l) = Done o ->
       (forall a, In a l -> ~ In (ascii_of_nat 34) a) -> win_split (to_wsl o) = l).
Proof.
  intro H. specialize (H (L "/usr/bin/fbuild") (words ["-config"; "my files/fbuild.bff"]%string)).
  assert (E : match command_line 8 true None (L "-wsl" :: L "/usr/bin/fbuild" :: words ["-config"; "my files/fbuild.bff"]%string) with
              | Done o => Some (win_split (to_wsl o)) | _ => None end = Some (words ["-config"; "my"; "files/fbuild.bff"]%string)) by (vm_compute; reflexivity).
  destruct (command_line _ _ _ _) as [o| |]; try discriminate E. rewrite (H o eq_refl) in E.
  - discriminate E.
  - intros a [<-|[<-|[]]]; apply inb_not; vm_compute; reflexivity.
Qed.
Print Assumptions C92_wsl_refuted.

(** Everything that begins with -report asks for a report. *)
Theorem C92_report_refuted :
  ~ (forall l o, command_line 8 true None l = Done o -> report o <> [] ->
       exists a, In a l /\ (a = L "-report" \/ exists t, a = L "-report=" ++ t)).
Proof.
  intro H. specialize (H (words ["-reports"]%string)).
  assert (R : match command_line 8 true None (words ["-reports"]%string) with Done o => report o | _ => [] end = L "html") by (vm_compute; reflexivity).
  destruct (command_line 8 true None (words ["-reports"]%string)) as [o| |]; try discriminate R.
  destruct (H o eq_refl ltac:(rewrite R; discriminate)) as (a & [<-|[]] & [E|(t & E)]).
  - vm_compute in E. discriminate E.
  - assert (X : nth 7 (L "-reports") " "%char = nth 7 (L "-report=" ++ t) " "%char) by exact (f_equal (fun z => nth 7 z " "%char) E).
    vm_compute in X. discriminate X.
Qed.
Print Assumptions C92_report_refuted.

(** What is expected of the command line: the words of C92. *)
From Coq Require Import String Ascii List Bool Arith NArith ZArith.
From Verif Require Import M_Path M_Cli.
Import ListNotations.
Local Open Scope list_scope.

Local Notation dquote := (ascii_of_nat 34).
Local Notation backslash := (ascii_of_nat 92).
Local Notation tab := (ascii_of_nat 9).

(** How a program on Windows takes its command line apart ("Parsing C
    command-line arguments" in Microsoft's documentation): arguments end at
    spaces and tabs outside of quotes; backslashes stand for themselves except
    before a quote, where two stand for one and an odd one makes the quote a
    character; two quotes inside of quotes are one.  [k]: backslashes that
    have been seen but not yet taken; [cur]: the argument so far, last
    character first; [inq]: inside of quotes. *)
Definition so_far (k : nat) (cur : option str) : str := repeat backslash k ++ match cur with Some t => t | None => [] end.
Fixpoint wsplit (k : nat) (cur : option str) (inq : bool) (s : str) : list str :=
  match s with
  | [] => match k, cur with O, None => [] | _, _ => [rev (so_far k cur)] end
  | c :: r =>
      if Ascii.eqb c backslash then wsplit (S k) cur inq r
      else if Ascii.eqb c dquote then
        if Nat.even k
        then match inq, r with
             | true, d :: r' =>
                 if Ascii.eqb d dquote then wsplit 0 (Some (dquote :: so_far (Nat.div2 k) cur)) true r'
                 else wsplit 0 (Some (so_far (Nat.div2 k) cur)) false r
             | _, _ => wsplit 0 (Some (so_far (Nat.div2 k) cur)) (negb inq) r
             end
        else wsplit 0 (Some (dquote :: so_far (Nat.div2 k) cur)) inq r
      else if (Ascii.eqb c " " || Ascii.eqb c tab) && negb inq then
        match k, cur with
        | O, None => wsplit 0 None false r
        | _, _ => rev (so_far k cur) :: wsplit 0 None false r
        end
      else wsplit 0 (Some (c :: so_far k cur)) inq r
  end.
Definition win_split (s : str) : list str := wsplit 0 None false s.

(** The same options, but for the part in the chain of processes and the text
    that is passed on. *)
Definition same_options (a b : opts) : Prop :=
  (forall f, flag a f = flag b f) /\ cache_trim a = cache_trim b /\ cache_level a = cache_level b /\ dist_level a = dist_level b /\
  threads a = threads b /\ config a = config b /\ db a = db b /\ report a = report b /\ sources a = sources b /\
  targets a = targets b /\ wsl_path a = wsl_path b.

(** Options that take the argument after them. *)
Definition takes_path (a : str) : bool := existsb (fun n => if list_eq_dec ascii_dec a (L n) then true else false) ["-config"; "-dbfile"]%string.
Definition takes_word (a : str) : bool :=
  existsb (fun n => if list_eq_dec ascii_dec a (L n) then true else false)
    ["-cachetrim"; "-cachecompressionlevel"; "-distcompressionlevel"; "-sourcefile"]%string.
Definition is_option (a : str) : bool := match a with c :: _ => Ascii.eqb c "-" | [] => false end.

(** Arguments that need no quotes, and arguments that quotes alone protect. *)
Definition word (a : str) : Prop := a <> [] /\ ~ In " "%char a /\ ~ In tab a /\ ~ In dquote a.
Definition text (a : str) : Prop := ~ In dquote a /\ forall b, a <> b ++ [backslash].

(** Options and their values are words; paths and targets may have spaces. *)
Fixpoint tame (l : list str) : Prop :=
  match l with
  | [] => True
  | a :: r =>
      if is_option a
      then word a /\
           (if takes_path a then match r with v :: r' => text v /\ tame r' | [] => False end
            else if takes_word a then match r with v :: r' => word v /\ tame r' | [] => False end
            else tame r)
      else text a /\ tame r
  end.

(** The targets that a command line names, and the last value of an option. *)
Fixpoint named (l : list str) : list str :=
  match l with
  | [] => []
  | a :: r => if takes_path a || takes_word a then match r with _ :: r' => named r' | [] => [] end
              else if is_option a then named r else a :: named r
  end.
Fixpoint last_value (option : string) (l : list str) (before : str) : str :=
  match l with
  | [] => before
  | a :: r => if takes_path a || takes_word a
              then match r with
                   | v :: r' => last_value option r' (if list_eq_dec ascii_dec a (L option) then v else before)
                   | [] => before
                   end
              else last_value option r before
  end.

(** The options that switch something on, and off. *)
Definition on (f : field) : list string :=
  match f with
  | ForceCleanBuild => ["-clean"] | StopOnFirstError => [] | FastCancel => [] | WaitMode => ["-wait"]
  | DisplayTargetList => ["-showtargets"; "-showalltargets"] | ShowHiddenTargets => ["-showalltargets"]
  | DisplayDependencyDB => ["-showdeps"] | GenerateDotGraph => ["-dot"; "-dotfull"] | GenerateDotGraphFull => ["-dotfull"]
  | GenerateCompilationDatabase => ["-compdb"] | NoUnity => ["-nounity"]
  | UseCacheRead => ["-cache"; "-cacheread"] | UseCacheWrite => ["-cache"; "-cachewrite"] | CacheInfo => ["-cacheinfo"]
  | CacheVerbose => ["-cacheverbose"; "-verbose"] | AllowDistributed => ["-dist"; "-distverbose"; "-forceremote"]
  | DistVerbose => ["-distverbose"] | NoLocalConsumption => ["-forceremote"] | AllowLocalRace => []
  | ShowVerbose => ["-verbose"] | ShowBuildReason => ["-why"; "-distverbose"] | ShowCommandSummary => []
  | ShowCommandLines => ["-showcmds"; "-verbose"] | ShowCommandOutput => ["-showcmdoutput"; "-verbose"]
  | ShowProgress => ["-progress"] | ShowSummary => ["-summary"; "-nosummaryonerror"] | ShowTotalTimeTaken => []
  | NoSummaryOnError => ["-nosummaryonerror"] | EnableMonitor => ["-monitor"] | Profile => ["-profile"]
  | FixupErrorPaths => ["-fixuperrorpaths"; "-ide"; "-vs"] | ContinueAfterDBMove => ["-continueafterdbmove"]
  | ProgressSpecified => ["-progress"; "-noprogress"; "-ide"; "-vs"]
  end%string.
Definition off (f : field) : list string :=
  match f with
  | StopOnFirstError => ["-nostoponerror"] | FastCancel => ["-nofastcancel"] | AllowLocalRace => ["-nolocalrace"; "-forceremote"]
  | ShowCommandSummary => ["-quiet"] | ShowTotalTimeTaken => ["-quiet"] | ShowVerbose => ["-quiet"]
  | ShowProgress => ["-noprogress"; "-ide"; "-vs"] | GenerateDotGraphFull => ["-dot"]
  | _ => []
  end%string.
Definition by_default (f : field) : bool :=
  existsb (field_beq f) [StopOnFirstError; FastCancel; AllowLocalRace; ShowCommandSummary; ShowTotalTimeTaken].
Definition is_one (a : str) (l : list string) : bool := existsb (fun n => if list_eq_dec ascii_dec a (L n) then true else false) l.
(** The last option that says something about [f] counts. *)
Fixpoint setting (f : field) (l : list str) (before : bool) : bool :=
  match l with
  | [] => before
  | a :: r =>
      if takes_path a || takes_word a then match r with _ :: r' => setting f r' before | [] => before end
      else setting f r (if is_one a (on f) then true else if is_one a (off f) then false else before)
  end.

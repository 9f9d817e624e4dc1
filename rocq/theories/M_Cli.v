(** The command line of FBuild, and how it is passed on to other processes.

    Models Tools/FBuild/FBuildCore/FBuildOptions.cpp (ProcessCommandLine,
    lines 40-543) and FBuildOptions.h as compiled for Windows, and
    WrapperMainProcess, WrapperIntermediateProcess and WrapperModeForWSL of
    Tools/FBuild/FBuild/Main.cpp (lines 269-357).

    Not modelled: what is printed, the message box of -debug, the working
    directory and the names of mutexes. *)

From Coq Require Import String Ascii List Bool Arith NArith ZArith.
From Verif Require Import M_Path M_Args M_Names M_Drv.
Import ListNotations.
Local Open Scope list_scope.

(** The boolean members of FBuildOptions, FBuildOptions.h lines 54-103, that
    the command line can change, and progressOptionSpecified (FBuildOptions.cpp
    line 57). *)
Inductive field :=
| ForceCleanBuild | StopOnFirstError | FastCancel | WaitMode | DisplayTargetList | ShowHiddenTargets | DisplayDependencyDB
| GenerateDotGraph | GenerateDotGraphFull | GenerateCompilationDatabase | NoUnity | UseCacheRead | UseCacheWrite | CacheInfo
| CacheVerbose | AllowDistributed | DistVerbose | NoLocalConsumption | AllowLocalRace | ShowVerbose | ShowBuildReason
| ShowCommandSummary | ShowCommandLines | ShowCommandOutput | ShowProgress | ShowSummary | ShowTotalTimeTaken | NoSummaryOnError
| EnableMonitor | Profile | FixupErrorPaths | ContinueAfterDBMove | ProgressSpecified.
Scheme Equality for field.

Inductive mode := NoWrapper | MainProcess | Intermediate | Final | WSL.

Record opts := Opts {
  flag : field -> bool; cache_trim : Z; cache_level : Z; dist_level : Z; threads : Z;
  config : str; db : str; report : str; sources : list str; targets : list str;
  wrapper : mode; wsl_path : str; args : str
}.

Definition set_flags (l : list (field * bool)) (o : opts) : opts :=
  Opts (fold_left (fun g x y => if field_beq y (fst x) then snd x else g y) l (flag o))
       (cache_trim o) (cache_level o) (dist_level o) (threads o) (config o) (db o) (report o) (sources o) (targets o)
       (wrapper o) (wsl_path o) (args o).
Definition set_mode (m : mode) (o : opts) : opts :=
  Opts (flag o) (cache_trim o) (cache_level o) (dist_level o) (threads o) (config o) (db o) (report o) (sources o) (targets o)
       m (wsl_path o) (args o).
Definition set_args (a : str) (o : opts) : opts :=
  Opts (flag o) (cache_trim o) (cache_level o) (dist_level o) (threads o) (config o) (db o) (report o) (sources o) (targets o)
       (wrapper o) (wsl_path o) a.

(** FBuildOptions.h lines 54-103 and the constructor, FBuildOptions.cpp lines
    22-38; [cores] is CPUInfo::GetNumUsefulCores. *)
Definition initial (cores : Z) : opts :=
  Opts (fun f => match f with
                 | StopOnFirstError | FastCancel | AllowLocalRace | ShowCommandSummary | ShowTotalTimeTaken => true
                 | _ => false
                 end)
       0 1 (-1) cores [] [] [] [] [] NoWrapper [] [].

(** sscanf with %u or %i of text that starts with a decimal number, with or
    without a sign; the low 32 bits are kept.  Simplified: hexadecimal and
    octal numbers of %i are not modelled, nor what the library does with
    numbers of more than 64 bits. *)
Definition is_digit (c : ascii) : bool := (48 <=? nat_of_ascii c)%nat && (nat_of_ascii c <=? 57)%nat.
Fixpoint digits (acc : option Z) (s : str) : option Z :=
  match s with
  | c :: r =>
      if is_digit c
      then digits (Some (match acc with Some a => a | None => 0 end * 10 + (Z.of_nat (nat_of_ascii c) - 48))%Z) r
      else acc
  | [] => acc
  end.
Fixpoint skip_white (s : str) : str :=
  match s with
  | c :: r => if Ascii.eqb c " " || ((9 <=? nat_of_ascii c)%nat && (nat_of_ascii c <=? 13)%nat) then skip_white r else s
  | [] => []
  end.
Definition scan (s : str) : option Z :=
  match skip_white s with
  | c :: r => if Ascii.eqb c "-" then option_map Z.opp (digits None r)
              else if Ascii.eqb c "+" then digits None r else digits None (c :: r)
  | [] => None
  end.
Definition scan_u (s : str) : option Z := option_map (fun v => v mod 2 ^ 32)%Z (scan s).
Definition scan_i (s : str) : option Z := option_map (fun v => (v + 2 ^ 31) mod 2 ^ 32 - 2 ^ 31)%Z (scan s).

(** What an argument is, lines 105-489: an option that sets members, one that
    takes the argument after it, ... *)
Inductive valued := CacheTrim | CacheLevel | DistLevel | Config | DBFile | SourceFile.
Inductive kind :=
| Sets (l : list (field * bool)) | Takes (v : valued) | Jobs (n : Z) | Report (a : str) | Wrap (l : list (field * bool)) (m : mode)
| Quit | Unknown | Target.

(** The options that are compared as a whole, in the order of the code. *)
Definition table : list (string * kind) :=
  [("-continueafterdbmove"%string, Sets [(ContinueAfterDBMove, true)]);
   ("-cache"%string, Sets [(UseCacheRead, true); (UseCacheWrite, true)]);
   ("-cacheread"%string, Sets [(UseCacheRead, true)]);
   ("-cachewrite"%string, Sets [(UseCacheWrite, true)]);
   ("-cacheinfo"%string, Sets [(CacheInfo, true)]);
   ("-cachetrim"%string, Takes CacheTrim);
   ("-cacheverbose"%string, Sets [(CacheVerbose, true)]);
   ("-cachecompressionlevel"%string, Takes CacheLevel);
   ("-distcompressionlevel"%string, Takes DistLevel);
   ("-clean"%string, Sets [(ForceCleanBuild, true)]);
   ("-compdb"%string, Sets [(GenerateCompilationDatabase, true)]);
   ("-config"%string, Takes Config);
   ("-dbfile"%string, Takes DBFile);
   ("-debug"%string, Sets []);
   ("-dist"%string, Sets [(AllowDistributed, true)]);
   ("-distverbose"%string, Sets [(AllowDistributed, true); (DistVerbose, true); (ShowBuildReason, true)]);
   ("-dot"%string, Sets [(GenerateDotGraph, true); (GenerateDotGraphFull, false)]);
   ("-dotfull"%string, Sets [(GenerateDotGraph, true); (GenerateDotGraphFull, true)]);
   ("-fastcancel"%string, Sets []);
   ("-fixuperrorpaths"%string, Sets [(FixupErrorPaths, true)]);
   ("-forceremote"%string, Sets [(AllowDistributed, true); (NoLocalConsumption, true); (AllowLocalRace, false)]);
   ("-help"%string, Quit);
   ("-ide"%string, Wrap [(ShowProgress, false); (ProgressSpecified, true); (FixupErrorPaths, true)] MainProcess);
   ("-vs"%string, Wrap [(ShowProgress, false); (ProgressSpecified, true); (FixupErrorPaths, true)] MainProcess)].
(** Those after -j, lines 320-489. *)
Definition table2 : list (string * kind) :=
  [("-monitor"%string, Sets [(EnableMonitor, true)]);
   ("-nofastcancel"%string, Sets [(FastCancel, false)]);
   ("-nolocalrace"%string, Sets [(AllowLocalRace, false)]);
   ("-noprogress"%string, Sets [(ShowProgress, false); (ProgressSpecified, true)]);
   ("-nostoponerror"%string, Sets [(StopOnFirstError, false)]);
   ("-nosummaryonerror"%string, Sets [(ShowSummary, true); (NoSummaryOnError, true)]);
   ("-nounity"%string, Sets [(NoUnity, true)]);
   ("-profile"%string, Sets [(Profile, true)]);
   ("-progress"%string, Sets [(ShowProgress, true); (ProgressSpecified, true)]);
   ("-quiet"%string, Sets [(ShowCommandSummary, false); (ShowTotalTimeTaken, false); (ShowVerbose, false)])].
(** Those after -report, lines 393-489. *)
Definition table3 : list (string * kind) :=
  [("-showcmds"%string, Sets [(ShowCommandLines, true)]);
   ("-showcmdoutput"%string, Sets [(ShowCommandOutput, true)]);
   ("-showdeps"%string, Sets [(DisplayDependencyDB, true)]);
   ("-showtargets"%string, Sets [(DisplayTargetList, true)]);
   ("-showalltargets"%string, Sets [(DisplayTargetList, true); (ShowHiddenTargets, true)]);
   ("-sourcefile"%string, Takes SourceFile);
   ("-summary"%string, Sets [(ShowSummary, true)]);
   ("-verbose"%string, Sets [(ShowVerbose, true); (ShowCommandLines, true); (ShowCommandOutput, true); (CacheVerbose, true)]);
   ("-version"%string, Quit);
   ("-wait"%string, Sets [(WaitMode, true)]);
   ("-why"%string, Sets [(ShowBuildReason, true)]);
   ("-wrapper"%string, Wrap [] MainProcess);
   ("-wrapperintermediate"%string, Wrap [] Intermediate);
   ("-wrapperfinal"%string, Wrap [] Final)].
Fixpoint lookup (t : list (string * kind)) (a : str) : option kind :=
  match t with
  | (n, k) :: r => if teq a (L n) then Some k else lookup r a
  | [] => None
  end.

Definition kind_of (a : str) : kind :=
  match a with
  | c :: _ =>
      if Ascii.eqb c "-"
      then match lookup table a with
           | Some k => k
           | None =>
               match (if starts_with (L "-j") a then scan_u (skipn 2 a) else None) with
               | Some n => Jobs n
               | None =>
                   match lookup table2 a with
                   | Some k => k
                   | None => if starts_with (L "-report") a then Report a
                             else match lookup table3 a with Some k => k | None => Unknown end
                   end
               end
           end
      else Target
  | [] => Target
  end.

(** OPTIONS_OK, OPTIONS_OK_AND_QUIT, OPTIONS_ERROR. *)
Inductive result := Done (o : opts) | Quits | Error.

(** The argument after an option that takes one; None: there is none.  The
    text is the one that is added to m_Args. *)
Definition take (v : valued) (value : option str) (o : opts) : option (opts * str) :=
  match v, value with
  | CacheTrim, Some a =>
      option_map (fun n => (Opts (flag o) n (cache_level o) (dist_level o) (threads o) (config o) (db o) (report o) (sources o)
                                 (targets o) (wrapper o) (wsl_path o) (args o), L " " ++ a)) (scan_u a)
  | CacheLevel, Some a =>
      match scan_i a with
      | Some n => if ((n <? -128) || (12 <? n))%Z then None
                  else Some (Opts (flag o) (cache_trim o) n (dist_level o) (threads o) (config o) (db o) (report o) (sources o)
                                  (targets o) (wrapper o) (wsl_path o) (args o), L " " ++ a)
      | None => None
      end
  | DistLevel, Some a =>
      match scan_i a with
      | Some n => if ((n <? -128) || (12 <? n))%Z then None
                  else Some (Opts (flag o) (cache_trim o) (cache_level o) n (threads o) (config o) (db o) (report o) (sources o)
                                  (targets o) (wrapper o) (wsl_path o) (args o), L " " ++ a)
      | None => None
      end
  | Config, Some a =>
      Some (Opts (flag o) (cache_trim o) (cache_level o) (dist_level o) (threads o) a (db o) (report o) (sources o)
                 (targets o) (wrapper o) (wsl_path o) (args o), L " " ++ [quote] ++ a ++ [quote])
  | DBFile, Some a =>
      Some (Opts (flag o) (cache_trim o) (cache_level o) (dist_level o) (threads o) (config o) a (report o) (sources o)
                 (targets o) (wrapper o) (wsl_path o) (args o), L " " ++ [quote] ++ a ++ [quote])
  | SourceFile, Some a =>
      match tokenize ";" a with
      | [] => None
      | l => Some (Opts (flag o) (cache_trim o) (cache_level o) (dist_level o) (threads o) (config o) (db o) (report o) l
                        (targets o) (wrapper o) (wsl_path o) (args o), L " " ++ a)
      end
  (* lines 422-443: without an argument, the files of an option before this
     one are enough *)
  | SourceFile, None => match sources o with [] => None | _ => Some (o, []) end
  | _, None => None
  end.

(** -report, lines 371-392. *)
Definition take_report (a : str) (o : opts) : option opts :=
  let ok t := Some (Opts (flag o) (cache_trim o) (cache_level o) (dist_level o) (threads o) (config o) (db o) t (sources o)
                         (targets o) (wrapper o) (wsl_path o) (args o)) in
  match tokenize "=" a with
  | _ :: t :: _ => if teq (lower t) (L "html") || teq (lower t) (L "json") then ok (lower t) else None
  | _ => ok (L "html")
  end.

(** The text that separates an argument from those before it, lines 91-95. *)
Definition sep (o : opts) : str := match args o with [] => [] | _ => L " " end.
Definition add (a : str) (o : opts) : opts := set_args (args o ++ sep o ++ a) o.

(** The loop over the arguments, lines 59-504; [first]: i is 1. *)
Fixpoint process (first : bool) (l : list str) (o : opts) : result :=
  match l with
  | [] => Done o
  | a :: r =>
      match wrapper o with
      (* lines 97-102 *)
      | WSL => process false r (add a o)
      | m =>
          if (match m with NoWrapper => true | _ => false end && teq a (L "-wsl"))%bool
          then (* lines 64-89 *)
            if first
            then match r with
                 | p :: r' =>
                     process false r' (Opts (flag o) (cache_trim o) (cache_level o) (dist_level o) (threads o) (config o) (db o)
                                            (report o) (sources o) (targets o) WSL p (args o))
                 | [] => Error
                 end
            else Error
          else
            match kind_of a with
            | Target =>
                process false r
                  (let o1 := add ([quote] ++ a ++ [quote]) o in
                   Opts (flag o) (cache_trim o) (cache_level o) (dist_level o) (threads o) (config o) (db o) (report o) (sources o)
                        (targets o ++ [a]) (wrapper o) (wsl_path o) (args o1))
            | Sets fs => process false r (set_flags fs (add a o))
            | Wrap fs m => process false r (set_mode m (set_flags fs (add a o)))
            | Jobs n =>
                if (n <=? 256)%Z
                then process false r
                       (let o1 := add a o in
                        Opts (flag o1) (cache_trim o1) (cache_level o1) (dist_level o1) n (config o1) (db o1) (report o1)
                             (sources o1) (targets o1) (wrapper o1) (wsl_path o1) (args o1))
                else Error
            | Report t => match take_report t (add a o) with Some o1 => process false r o1 | None => Error end
            | Takes v =>
                match r with
                | x :: r' =>
                    match take v (Some x) (add a o) with
                    | Some (o1, t) => process false r' (set_args (args o1 ++ t) o1)
                    | None => Error
                    end
                | [] =>
                    match take v None (add a o) with
                    | Some (o1, t) => Done (set_args (args o1 ++ t) o1)
                    | None => Error
                    end
                end
            | Quit => Quits
            | Unknown => Error
            end
      end
  end.

(** Lines 506-543: [redirected] is Env::IsStdOutRedirected, [env] the variable
    FASTBUILD_CACHE_MODE. *)
Definition finish (redirected : bool) (env : option str) (o : opts) : result :=
  let o1 := if flag o ProgressSpecified then o else set_flags [(ShowProgress, negb redirected)] o in
  let o2 := Opts (flag o1) (cache_trim o1) (cache_level o1) (dist_level o1) (threads o1) (config o1) (db o1) (report o1)
                 (sources o1) (match targets o1 with [] => [L "all"] | t => t end) (wrapper o1) (wsl_path o1) (args o1) in
  if (negb (flag o2 UseCacheRead) && negb (flag o2 UseCacheWrite))%bool
  then match env with
       | Some e =>
           if teq e (L "r") then Done (set_flags [(UseCacheRead, true)] o2)
           else if teq e (L "w") then Done (set_flags [(UseCacheWrite, true)] o2)
           else if teq e (L "rw") then Done (set_flags [(UseCacheRead, true); (UseCacheWrite, true)] o2)
           else Error
       | None => Done o2
       end
  else Done o2.

(** FBuildOptions::ProcessCommandLine; the arguments after the name of the
    program. *)
Definition command_line (cores : Z) (redirected : bool) (env : option str) (l : list str) : result :=
  match process true l (initial cores) with Done o => finish redirected env o | r => r end.

(** Main.cpp lines 285-289, 329-333 and 349: the text that is given to the
    process that is started. *)
Definition to_intermediate (o : opts) : str := args o ++ L " -wrapperintermediate".
Definition to_final (o : opts) : str := args o ++ L " -wrapperfinal".
Definition to_wsl (o : opts) : str := args o.

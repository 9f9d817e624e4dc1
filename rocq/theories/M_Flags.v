(** Model of what FASTBuild finds out about a compilation from its options: ObjectNode::DetermineFlags,
    Code/Tools/FBuild/FBuildCore/Graph/ObjectNode.cpp 897-1161, ShouldUseCache 2729-2756, IsDistributionAllowed 2759-2764.
    The compiler family is that of M_Drv. *)
From Coq Require Import String List Arith Bool Ascii.
From Verif Require Import M_Path M_Args M_Drv.
Import ListNotations.
Open Scope list_scope.

(** The flags that DetermineFlags sets, with its local variables usingCLR (the same as the flag), usingWinRT,
    usingPreprocessorOnly (the same as FLAG_INCLUDES_IN_STDERR), coverage and objectiveC; ObjectNode.h CompilerFlags. *)
Record flags := mkF {
  using_pdb : bool; clr : bool; winrt_code : bool; only_preprocess : bool; warnings_fail_cl : bool; analysis : bool; dynamic_deopt : bool;
  nostdinc : bool; nostdincpp : bool; colour_auto : bool; gcov : bool; coverage : bool; warnings_fail : bool; objective_c : bool;
  can_distribute : bool; can_cache : bool }.
Definition no_flags : flags := mkF false false false false false false false false false false false false false false false false.

Definition set_pdb (f : flags) := mkF true (clr f) (winrt_code f) (only_preprocess f) (warnings_fail_cl f) (analysis f) (dynamic_deopt f) (nostdinc f) (nostdincpp f) (colour_auto f) (gcov f) (coverage f) (warnings_fail f) (objective_c f) (can_distribute f) (can_cache f).
Definition set_clr (f : flags) := mkF (using_pdb f) true (winrt_code f) (only_preprocess f) (warnings_fail_cl f) (analysis f) (dynamic_deopt f) (nostdinc f) (nostdincpp f) (colour_auto f) (gcov f) (coverage f) (warnings_fail f) (objective_c f) (can_distribute f) (can_cache f).
Definition set_winrt (f : flags) := mkF (using_pdb f) (clr f) true (only_preprocess f) (warnings_fail_cl f) (analysis f) (dynamic_deopt f) (nostdinc f) (nostdincpp f) (colour_auto f) (gcov f) (coverage f) (warnings_fail f) (objective_c f) (can_distribute f) (can_cache f).
Definition set_only_preprocess (f : flags) := mkF (using_pdb f) (clr f) (winrt_code f) true (warnings_fail_cl f) (analysis f) (dynamic_deopt f) (nostdinc f) (nostdincpp f) (colour_auto f) (gcov f) (coverage f) (warnings_fail f) (objective_c f) (can_distribute f) (can_cache f).
Definition set_wx (f : flags) := mkF (using_pdb f) (clr f) (winrt_code f) (only_preprocess f) true (analysis f) (dynamic_deopt f) (nostdinc f) (nostdincpp f) (colour_auto f) (gcov f) (coverage f) (warnings_fail f) (objective_c f) (can_distribute f) (can_cache f).
Definition put_analysis (b : bool) (f : flags) := mkF (using_pdb f) (clr f) (winrt_code f) (only_preprocess f) (warnings_fail_cl f) b (dynamic_deopt f) (nostdinc f) (nostdincpp f) (colour_auto f) (gcov f) (coverage f) (warnings_fail f) (objective_c f) (can_distribute f) (can_cache f).
Definition set_deopt (f : flags) := mkF (using_pdb f) (clr f) (winrt_code f) (only_preprocess f) (warnings_fail_cl f) (analysis f) true (nostdinc f) (nostdincpp f) (colour_auto f) (gcov f) (coverage f) (warnings_fail f) (objective_c f) (can_distribute f) (can_cache f).
Definition set_nostdinc (f : flags) := mkF (using_pdb f) (clr f) (winrt_code f) (only_preprocess f) (warnings_fail_cl f) (analysis f) (dynamic_deopt f) true (nostdincpp f) (colour_auto f) (gcov f) (coverage f) (warnings_fail f) (objective_c f) (can_distribute f) (can_cache f).
Definition set_nostdincpp (f : flags) := mkF (using_pdb f) (clr f) (winrt_code f) (only_preprocess f) (warnings_fail_cl f) (analysis f) (dynamic_deopt f) (nostdinc f) true (colour_auto f) (gcov f) (coverage f) (warnings_fail f) (objective_c f) (can_distribute f) (can_cache f).
Definition put_colour (b : bool) (f : flags) := mkF (using_pdb f) (clr f) (winrt_code f) (only_preprocess f) (warnings_fail_cl f) (analysis f) (dynamic_deopt f) (nostdinc f) (nostdincpp f) b (gcov f) (coverage f) (warnings_fail f) (objective_c f) (can_distribute f) (can_cache f).
Definition put_gcov (b : bool) (f : flags) := mkF (using_pdb f) (clr f) (winrt_code f) (only_preprocess f) (warnings_fail_cl f) (analysis f) (dynamic_deopt f) (nostdinc f) (nostdincpp f) (colour_auto f) b (coverage f) (warnings_fail f) (objective_c f) (can_distribute f) (can_cache f).
Definition set_coverage (f : flags) := mkF (using_pdb f) (clr f) (winrt_code f) (only_preprocess f) (warnings_fail_cl f) (analysis f) (dynamic_deopt f) (nostdinc f) (nostdincpp f) (colour_auto f) (gcov f) true (warnings_fail f) (objective_c f) (can_distribute f) (can_cache f).
Definition set_werror (f : flags) := mkF (using_pdb f) (clr f) (winrt_code f) (only_preprocess f) (warnings_fail_cl f) (analysis f) (dynamic_deopt f) (nostdinc f) (nostdincpp f) (colour_auto f) (gcov f) (coverage f) true (objective_c f) (can_distribute f) (can_cache f).
Definition set_objc (f : flags) := mkF (using_pdb f) (clr f) (winrt_code f) (only_preprocess f) (warnings_fail_cl f) (analysis f) (dynamic_deopt f) (nostdinc f) (nostdincpp f) (colour_auto f) (gcov f) (coverage f) (warnings_fail f) true (can_distribute f) (can_cache f).
Definition put_able (dist cache : bool) (f : flags) := mkF (using_pdb f) (clr f) (winrt_code f) (only_preprocess f) (warnings_fail_cl f) (analysis f) (dynamic_deopt f) (nostdinc f) (nostdincpp f) (colour_auto f) (gcov f) (coverage f) (warnings_fail f) (objective_c f) dist cache.

(** One token of a cl.exe or clang-cl command line, ObjectNode.cpp 953-1000. *)
Definition cl_step (clang_cl : bool) (f : flags) (t : str) : flags :=
  if is_arg t (L "Zi") || is_arg t (L "ZI") then (if clang_cl then f else set_pdb f)
  else if is_start t (L "clr") then set_clr f
  else if is_arg t (L "ZW") then set_winrt f
  else if is_arg t (L "P") then set_only_preprocess f
  else if is_arg t (L "WX") then set_wx f
  else if is_start t (L "analyze") then put_analysis (negb (is_arg t (L "analyze-"))) f
  else if is_start t (L "dynamicdeopt") then set_deopt f
  else if clang_cl && is_arg t (L "nostdinc") then set_nostdinc f
  else f.

(** One token of a GCC or Clang command line, ObjectNode.cpp 1050-1105; [next] is empty when there is none. *)
Definition gcc_step (f : flags) (t next : str) : flags :=
  if teq t (L "-fdiagnostics-color=auto") then put_colour true f
  else if starts_with (L "-fdiagnostics-color") t || teq t (L "-fno-diagnostics-color") then put_colour false f
  else if teq t (L "-ftest-coverage") then put_gcov true f
  else if teq t (L "-fno-test-coverage") then put_gcov false f
  else if teq t (L "--coverage") then set_coverage f
  else if starts_with (L "-Werror") t then set_werror f
  else if teq t (L "-fobjc-arc") then set_objc f
  else if teq t (L "-x") then (if teq next (L "objective-c") then set_objc f else f)
  else if teq t (L "-nostdinc") || teq t (L "--no-standard-includes") then set_nostdinc f
  else if teq t (L "-nostdinc++") then set_nostdincpp f
  else f.
Fixpoint gcc_steps (f : flags) (toks : list str) : flags :=
  match toks with [] => f | t :: r => gcc_steps (gcc_step f t (hd [] r)) r end.

(** DetermineFlags.  [dist], [cache]: CanBeDistributed and CanBeCached of the compiler; [mapped]: whether it has a
    source mapping.  The settings creatingPCH and usingPCH are flags of their own and not repeated here. *)
Definition determine (fm : fam) (dist cache mapped creating_pch : bool) (options : str) : flags :=
  let toks := tokenize space options in
  match fm with
  | Cl clang_cl =>
      let f := fold_left (cl_step clang_cl) toks no_flags in
      if negb (clr f) && negb (only_preprocess f) then
        put_able (dist && negb (winrt_code f) && negb creating_pch && negb (analysis f) && negb mapped) (cache && negb (using_pdb f)) f
      else f
  | Gcc clang =>
      let f := gcc_steps (put_colour clang no_flags) toks in
      let f := if coverage f then put_gcov true f else f in
      put_able (negb creating_pch && negb (objective_c f) && negb mapped && negb (gcov f) && dist) cache f
  | Snc | Wii | WiiU => put_able (negb creating_pch && negb mapped && dist) cache no_flags
  | Cuda => put_able false cache no_flags
  | Orbis => put_able dist cache no_flags
  | Vbcc | QtRcc | Generic => no_flags
  end.

(** ShouldUseCache: [allowed]: of the object list; [isolated]: the file was left out of its unity file; [pch_key]: [Some k] when a PCH
    is used with cl.exe, k its cache key. *)
Definition should_use_cache (f : flags) (allowed read write isolated no_unity : bool) (pch_key : option nat) : bool :=
  let u := can_cache f && allowed && (read || write) in
  let u := if isolated && negb no_unity then false else u in
  match pch_key with Some 0 => false | _ => u end.
(** IsDistributionAllowed. *)
Definition distribution_allowed (f : flags) (allowed option : bool) : bool := can_distribute f && allowed && option.

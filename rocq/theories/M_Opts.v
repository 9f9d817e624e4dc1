(** Include directories, forced includes, definitions and language options that
    the light cache and the project generators read from compiler options.

    Models Tools/FBuild/FBuildCore/Helpers/ProjectGeneratorBase.cpp lines 32-107
    (the prefixes) and 470-633 (ExtractIncludePaths, ExtractDefines,
    ExtractAdditionalOptions, ExtractIntellisenseOptions). *)

From Coq Require Import String List Bool Arith Ascii.
From Verif Require Import M_Path M_Args M_Drv.
Import ListNotations.
Local Open Scope list_scope.

(** Lines 37-79, m_IncludePrefixes: groups in the order of their priority. *)
Definition include_groups : list (list str) :=
  [ [L "/I"; L "-I"];
    [L "-isystem-after"; L "-isystem"];
    [L "/imsvc"; L "-imsvc"];
    [L "-idirafter"];
    [L "-iquote"];
    [L "/external:I"; L "-external:I"] ].
(** Lines 81-86, m_ForceIncludePrefixes. *)
Definition force_group : list str := [L "/FI"; L "-FI"].
(** Lines 88-93, m_DefinePrefixes. *)
Definition define_group : list str := [L "/D"; L "-D"].
(** Lines 95-102, m_AdditionalOptionPrefixes. *)
Definition option_group : list str := [L "-std"; L "/std"; L "-wd"; L "/wd"].

(** AString::Replace of a quote by an escaped quote, line 629. *)
Definition escape (s : str) : str :=
  flat_map (fun c => if Ascii.eqb c quote then [bslash; quote] else [c]) s.

(** Lines 617-621: AString::Trim( 1, 1 ) if there is a quote at both ends.  With
    a single quote the start of what is left lies behind its end (AString.cpp
    lines 800-819) and its length wraps round: undefined, [None]. *)
Definition trim_body (b : str) : option str :=
  match b with
  | [] => Some []
  | c :: r =>
      if Ascii.eqb c quote && ends_with b [quote]
      then match r with [] => None | _ => Some (removelast r) end
      else Some b
  end.

(** ExtractIntellisenseOptions, lines 552-633, on the tokens: the loop of line
    566.  [None] is undefined behaviour. *)
Fixpoint scan (group : list str) (esc keep : bool) (ts : list str) : option (list str) :=
  match ts with
  | [] => Some []
  | t0 :: r =>
      let t := remove_quotes t0 in
      let go (b : str) : option (list str) :=
        (* lines 600-615 *)
        let b2 := match b with
                  | [] => match List.find (fun p => starts_with p t) group with
                          | Some p => if keep then t else skipn (List.length p) t
                          | None => []
                          end
                  | _ => b
                  end in
        (* lines 617-631 *)
        match trim_body b2 with
        | None => None
        | Some [] => scan group esc keep r
        | Some b3 => option_map (cons (if esc then escape b3 else b3)) (scan group esc keep r)
        end in
      (* lines 575-598 *)
      if existsb (teq t) group
      then match r with [] => Some [] | n :: _ => go (remove_quotes n) end
      else go []
  end.

Definition extract (group : list str) (esc keep : bool) (opts : str) : option (list str) :=
  scan group esc keep (tokenize space opts).

(** Concatenation of results, [None] if one is undefined. *)
Fixpoint join_all (l : list (option (list str))) : option (list str) :=
  match l with
  | [] => Some []
  | None :: _ => None
  | Some x :: r => option_map (app x) (join_all r)
  end.

(** ExtractIncludePaths, lines 470-491. *)
Definition include_paths (esc : bool) (opts : str) : option (list str) :=
  join_all (map (fun g => extract g esc false opts) include_groups).
Definition forced_includes (esc : bool) (opts : str) : option (list str) := extract force_group esc false opts.
(** ExtractDefines, lines 495-506. *)
Definition defines (esc : bool) (opts : str) : option (list str) := extract define_group esc false opts.
(** ExtractAdditionalOptions, lines 510-521. *)
Definition additional_options (opts : str) : option (list str) := extract option_group false true opts.

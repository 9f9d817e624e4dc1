(** Model of ObjectNode::DoClangUnityFixup, Code/Tools/FBuild/FBuildCore/Graph/ObjectNode.cpp 2836-2959: the flags in the
    preprocessed text of a unity file that say "an included file begins" and "back in the unity file" are blanked. *)
From Coq Require Import String List Arith Bool Ascii.
From Verif Require Import M_Path M_Args M_Drv.
Import ListNotations.
Open Scope list_scope.

Definition newline : ascii := ascii_of_nat 10.
(** The text searched for at 2913. *)
Definition push_mark : str := newline :: L "# 1 " ++ [quote].
(** popDirectiveString, 2877-2880 and 2902-2904. *)
Definition pop_text (name : str) : str := [space; quote] ++ name ++ [quote; space; "2"%char].
(** Clang escapes backslashes (Windows), 2872-2875 and 2896-2899. *)
Definition escaped (p : plat) (n : str) : str :=
  if windows p then flat_map (fun c => if Ascii.eqb c bslash then [bslash; bslash] else [c]) n else n.

(** The loop at 2909-2958, on the text from pos on.  Each round moves pos behind a mark, so [fuel] = the length of the text is
    enough.  The data ends with a zero byte in C++ and has none inside (modelled by the end of the list). *)
Fixpoint fix_loop (fuel : nat) (pop s : str) : str :=
  match fuel with
  | 0 => s
  | S f =>
      match find push_mark s with
      | None => s
      | Some (a, b) =>
          a ++ push_mark ++
          (if Ascii.eqb (hd nul b) "<"%char then fix_loop f pop b
           else
             match find [quote] b with
             | None => b
             | Some (n, r) =>
                 n ++
                 (if starts_with [quote; space; "1"%char] (quote :: r) then
                    [quote; space; space] ++
                    (match find pop (skipn 2 r) with
                     | None => skipn 2 r
                     | Some (x, y) => x ++ removelast pop ++ fix_loop f pop (space :: y)
                     end)
                  else fix_loop f pop (quote :: r))
             end)
      end
  end.

(** The whole function; [full]: name of the source file; [rel]: relative to the working directory.  When neither is in the
    text, an assertion fails in a debug build and nothing is done otherwise. *)
Definition fixup (p : plat) (full rel data : str) : str :=
  match find (escaped p full) data with
  | Some (a, b) => a ++ fix_loop (S (List.length data)) (pop_text (escaped p full)) (escaped p full ++ b)
  | None =>
      match find (escaped p rel) data with
      | Some (a, b) => a ++ fix_loop (S (List.length data)) (pop_text (escaped p rel)) (escaped p rel ++ b)
      | None => data
      end
  end.

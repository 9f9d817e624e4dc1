(** C90: the compilation database is a JSON document with an entry for each source. *)

From Coq Require Import String List Bool Arith Ascii Lia.
From Verif Require Import M_Path M_Args S_Args M_Drv S_Drv M_Compdb S_Compdb P_Compdb3.
From Verif Require M_Objs.
Import ListNotations.
Local Open Scope list_scope.

(** With enough stack, the text is written, its entries are those of the object
    lists that the targets need, and if names and options are 7-bit text it is a
    JSON document with these entries. *)
Theorem C90_database : forall p g dir roots, acyclic g -> closed g -> (forall n, In n roots -> n < List.length g) ->
  exists stack, forall fuel, stack <= fuel -> exists entries t, database p g dir roots entries /\
    generate p fuel g dir roots = Some t /\
    (Forall ascii_entry entries -> document (JArray (map json_of entries)) t).
Proof. exact generate_spec. Qed.
Print Assumptions C90_database.

(** ** A case: a library with a directory, a loose file and a unity, below an alias; and another list that the unity takes up. *)
Definition settings : M_Objs.ocfg :=
  {| M_Objs.out_path := L "/o/"; M_Objs.root := []; M_Objs.prefix := []; M_Objs.ext := []; M_Objs.keep_ext := false; M_Objs.owner := L "lib"; M_Objs.pch_cpp := []; M_Objs.pch := [] |}.
Definition a_list (opts : str) (l : list str) (from to : nat) (lib : bool) : olist :=
  {| compiler := L "/bin/cc"; msvc := false; options := opts; cfg := settings; loose := l; first := from; last := to; library := lib |}.
Definition opts : str := L "-c %1 -o %2 " ++ [quote] ++ L "-Da b" ++ [quote].
Definition small : graph :=
  [ {| name := L "all"; pre := []; static := [1]; dynamic := []; kind := Plain false |};
    {| name := L "/o/lib.a"; pre := []; static := [2; 3; 4]; dynamic := []; kind := ObjList (a_list opts [L "/p/x.c"] 1 3 true) |};
    {| name := L "/bin/ar"; pre := []; static := []; dynamic := []; kind := Plain true |};
    {| name := L "dir"; pre := []; static := []; dynamic := []; kind := DirList (L "/p/s/") [L "/p/s/a.c"; L "/p/s/t/b.c"] |};
    {| name := L "unity"; pre := []; static := [5; 6; 7]; dynamic := []; kind := Unity (Some 7) |};
    {| name := L "other"; pre := []; static := []; dynamic := []; kind := ObjList (a_list opts [L "/p/y.c"] 0 0 false) |};
    {| name := L "/p/z.c"; pre := []; static := []; dynamic := []; kind := Plain true |};
    {| name := L "/p/isolate.txt"; pre := []; static := []; dynamic := []; kind := Plain true |} ].

Definition line (indent : nat) (s : list str) : str := repeat " "%char indent ++ concat s ++ nl.
Definition dq (s : string) : str := [quote] ++ L s ++ [quote].
Definition entry_lines (f out : string) (comma : bool) : str :=
  line 2 [L "{"] ++ line 4 [dq "directory"; L ": "; dq "/p"; L ","] ++ line 4 [dq "file"; L ": "; dq f; L ","] ++
  line 4 [dq "output"; L ": "; dq out; L ","] ++
  line 4 [dq "arguments"; L ": ["; dq "/bin/cc"; L ", "; dq "-c"; L ", "; dq f; L ", "; dq "-o"; L ", "; dq out; L ", "; dq "-Da b"; L "]"] ++
  line 2 [L "}"; if comma then L "," else []].

Example C90_case : acyclic small /\ closed small /\
  generate posix 9 small (L "/p") [0] = Some (line 0 [L "["] ++
    entry_lines "/p/y.c" "/o/y.o" true ++ entry_lines "/p/x.c" "/o/x.o" true ++ entry_lines "/p/s/a.c" "/o/a.o" true ++
    entry_lines "/p/s/t/b.c" "/o/t/b.o" true ++ entry_lines "/p/y.c" "/o/y.o" true ++ entry_lines "/p/z.c" "/o/z.o" true ++
    entry_lines "/p/isolate.txt" "/o/isolate.o" false ++ line 0 [L "]"]).
Proof.
  assert (D : forall n nd m, nth_error small n = Some nd -> In m (deps nd) -> n < m < 8).
  { intros n nd m E I. unfold small in E. do 8 (destruct n as [|n]; [injection E as <-; cbn in I; intuition lia|]). destruct n; discriminate. }
  split; [|split].
  - exists (fun n => 8 - n). intros n nd m E I. specialize (D n nd m E I). lia.
  - intros n nd m E I. specialize (D n nd m E I). cbn. lia.
  - vm_compute. reflexivity.
Qed.

(** The list of isolated files of a unity, which the unity does not compile, has
    an entry of its own as if it were a source. *)
Theorem C90_isolate_refuted : exists g u i nd_u nd_i before behind, nth_error g u = Some nd_u /\ kind nd_u = Unity (Some i) /\
  In i (static nd_u) /\ nth_error g i = Some nd_i /\
  generate posix 9 g (L "/p") [0] = Some (before ++ dq "file" ++ L ": " ++ [quote] ++ name nd_i ++ [quote] ++ behind).
Proof.
  exists small, 4, 7, {| name := L "unity"; pre := []; static := [5; 6; 7]; dynamic := []; kind := Unity (Some 7) |},
    {| name := L "/p/isolate.txt"; pre := []; static := []; dynamic := []; kind := Plain true |},
    (line 0 [L "["] ++
    entry_lines "/p/y.c" "/o/y.o" true ++ entry_lines "/p/x.c" "/o/x.o" true ++ entry_lines "/p/s/a.c" "/o/a.o" true ++
    entry_lines "/p/s/t/b.c" "/o/t/b.o" true ++ entry_lines "/p/y.c" "/o/y.o" true ++ entry_lines "/p/z.c" "/o/z.o" true ++
    line 2 [L "{"] ++ line 4 [dq "directory"; L ": "; dq "/p"; L ","] ++ L "    "),
    (L "," ++ nl ++ skipn (List.length (line 2 [L "{"] ++ line 4 [dq "directory"; L ": "; dq "/p"; L ","] ++ line 4 [dq "file"; L ": "; dq "/p/isolate.txt"; L ","])) (entry_lines "/p/isolate.txt" "/o/isolate.o" false) ++ line 0 [L "]"]).
  split; [reflexivity|]. split; [reflexivity|]. split; [cbn; tauto|]. split; [reflexivity|]. vm_compute. reflexivity.
Qed.
Print Assumptions C90_isolate_refuted.


(** What is expected of a solution for Visual Studio.  Written without the generator. *)
From Coq Require Import String Ascii List Arith Bool.
From Verif Require Import M_Path M_Names M_Sln S_Vcx.
Import ListNotations.
Local Open Scope list_scope.

(** The name [n] of a project occurs somewhere in the settings. *)
Definition mentions (s : solution) (n : str) : Prop :=
  In n (projects s) \/ (exists f, In f (sfolders s) /\ In n (holds f)) \/ (exists d, In d (sdeps s) /\ (In n (who d) \/ In n (what d)))
  \/ (exists c, In c (configs s) /\ (In n (build c) \/ In n (deploy c))).
Definition member (find : str -> option node) (s : solution) (q : node) : Prop := exists n, mentions s n /\ find n = Some q.
(** Names are unique in the graph. *)
Definition unique (find : str -> option node) : Prop := forall n m q r, find n = Some q -> find m = Some r -> pname q = pname r -> q = r.
(** The setting [g] is about the folder [c]: slashes are those of Windows, and there may be one more at the end. *)
Definition is_for (g : sfolder) (c : str) : Prop := slashes (path g) = c ++ ["\"%char] \/ (slashes (path g) = c /\ ~ exists d, c = d ++ ["\"%char]).
Definition folder_of (s : solution) (a : str) : Prop := exists g c, In g (sfolders s) /\ is_for g c /\ within a c.
(** The project [q] is put into the folder [c]. *)
Definition put_in (s : solution) (q : node) (c : str) : Prop := exists g, In g (sfolders s) /\ is_for g c /\ In (pname q) (holds g).
(** [b] is the folder around [a]. *)
Definition around (b a : str) : Prop := exists n, a = b ++ "\"%char :: n /\ ~ In "\"%char n.
Definition last_name (a n : str) : Prop := (~ In "\"%char a /\ n = a) \/ (~ In "\"%char n /\ exists b, a = b ++ "\"%char :: n).

(** Vocabulary for C44 and C45. *)
From Coq Require Import List Arith NArith.
From Verif Require Import M_Bytes.
Import ListNotations.
Local Open Scope N_scope.

(** "%1" *)
Definition tok : bytes := [37; 49].
(** [v'] is [v] with its first "%1", if any, replaced by [base] *)
Inductive subst_first (base : bytes) : bytes -> bytes -> Prop :=
| sf_none v : (forall a b, v <> a ++ tok ++ b) -> subst_first base v v
| sf_one a b : (forall a' b', a ++ tok ++ b = a' ++ tok ++ b' -> (List.length a <= List.length a')%nat) ->
               subst_first base (a ++ tok ++ b) (a ++ base ++ b).
(** How an environment block is read: NUL-terminated strings up to an empty one. *)
Inductive env_reads : bytes -> list bytes -> Prop :=
| er_end rest : env_reads (0 :: rest) []
| er_next v vs rest : v <> [] -> ~ In 0 v -> env_reads rest vs -> env_reads (v ++ 0 :: rest) (v :: vs).

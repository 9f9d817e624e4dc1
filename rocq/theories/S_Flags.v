(** Specification vocabulary: what the options say about a compilation. *)
From Coq Require Import String List Ascii Bool.
From Verif Require Import M_Path M_Drv S_Drv.
Import ListNotations.
Open Scope list_scope.

(** cl.exe options: given exactly, or with something attached. *)
Definition given (o : str) (toks : list str) : Prop := exists t, In t toks /\ dashed t o.
Definition given_with (o : str) (toks : list str) : Prop := exists t x, In t toks /\ dashed t (o ++ x).
(** The last token with a property. *)
Definition last_such (P : str -> Prop) (toks : list str) (t : str) : Prop :=
  exists a b, toks = a ++ t :: b /\ P t /\ Forall (fun x => ~ P x) b.

(** /analyze was said last, not /analyze-. *)
Definition analyzing (toks : list str) : Prop :=
  exists t, last_such (fun t => exists x, dashed t (L "analyze" ++ x)) toks t /\ ~ dashed t (L "analyze-").
(** Coverage data: --coverage anywhere, or -ftest-coverage not taken back. *)
Definition covering (toks : list str) : Prop :=
  In (L "--coverage") toks \/ last_such (fun t => t = L "-ftest-coverage" \/ t = L "-fno-test-coverage") toks (L "-ftest-coverage").
Definition colour_option (t : str) : Prop := (exists x, t = L "-fdiagnostics-color" ++ x) \/ t = L "-fno-diagnostics-color".
Definition colour_by_terminal (clang : bool) (toks : list str) : Prop :=
  last_such colour_option toks (L "-fdiagnostics-color=auto") \/ clang = true /\ Forall (fun t => ~ colour_option t) toks.
(** Options that make the code Objective C for FASTBuild. *)
Definition objective (toks : list str) : Prop :=
  In (L "-fobjc-arc") toks \/ exists a b, toks = a ++ L "-x" :: L "objective-c" :: b.

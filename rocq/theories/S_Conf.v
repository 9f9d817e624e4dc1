(** Vocabulary for C16 and C48: what a configuration means in a world that does not change. *)
From Coq Require Import List NArith.
From Verif Require Import M_Bytes M_Conf.
Import ListNotations.
Local Open Scope N_scope.

Section Meaning.
Variable h32 : bytes -> N.
(** [over]: the LIB variable set by the configuration itself, if any *)
Fixpoint meaning {R} (p : conf R) (w : world) (over : option bytes) : option R :=
  match p with
  | Done r => Some r
  | Err => None
  | Inc f k => match w_file w f with None => None | Some c => meaning (k c) w over end
  | Imp v k => match w_env w v with None => None | Some x => meaning (k x) w over end
  | IfEnv v k => meaning (k (match w_env w v with None => false | Some x => negb (h32 x =? 0) end)) w over
  | IfFile f k => meaning (k (w_exists w f)) w over
  | Lib k => meaning (k (match over with Some l => l | None => match w_env w [76;73;66] with Some x => x | None => [] end end)) w over
  | SetEnv _ l k => meaning k w (Some l)
  end.
(** Nothing hides a change: equal hashes (0 standing for a missing variable) mean equal values, a file whose stamp is
    unchanged has its old contents, and equal content hashes mean equal contents. *)
Definition env_hash (v : option bytes) : N := match v with None => 0 | Some x => h32 x end.
Definition changes_show (h64 : bytes -> N) (w1 w2 : world) : Prop :=
  (forall v, env_hash (w_env w1 v) = env_hash (w_env w2 v) -> w_env w1 v = w_env w2 v) /\
  (h32 (match w_env w1 [76;73;66] with Some x => x | None => [] end) = h32 (match w_env w2 [76;73;66] with Some x => x | None => [] end) ->
   match w_env w1 [76;73;66] with Some x => x | None => [] end = match w_env w2 [76;73;66] with Some x => x | None => [] end) /\
  (forall f, w_stamp w1 f = w_stamp w2 f -> w_file w1 f = w_file w2 f) /\
  (forall f c1 c2, w_file w1 f = Some c1 -> w_file w2 f = Some c2 -> h64 c1 = h64 c2 -> c1 = c2).
End Meaning.
(** A configuration that also reports the value each #import handed back. *)
Fixpoint logged {R} (p : conf R) (tr : list (bytes * bytes)) : conf (R * list (bytes * bytes)) :=
  match p with
  | Done r => Done (r, tr)
  | Err => Err
  | Inc f k => Inc f (fun c => logged (k c) tr)
  | Imp v k => Imp v (fun x => logged (k x) (tr ++ [(v, x)]))
  | IfEnv v k => IfEnv v (fun b => logged (k b) tr)
  | IfFile f k => IfFile f (fun b => logged (k b) tr)
  | Lib k => Lib (fun x => logged (k x) tr)
  | SetEnv e l k => SetEnv e l (logged k tr)
  end.

(** C91: workers that can be used are found, and others are not. *)
From Coq Require Import String Ascii List Bool Arith NArith ZArith Lia.
From Verif Require Import M_Path M_Args M_Broker S_Broker P_Broker P_Broker2 P_Broker3 P_Broker4.
Import ListNotations.
Local Open Scope list_scope.
Local Open Scope Z_scope.

(** A worker that has offered itself for ten seconds has a token, and keeps
    it for as long as it is heard of at least once in (almost) a day,
    whatever the other workers do.  It has one token only, which is as fresh
    as its calls are frequent, under a name the machine had in the five
    minutes before. *)
Theorem C91_published : forall root owner t0 f i h0 h1 c h2 gap,
  let h := h0 ++ h1 ++ Call i c :: h2 in
  Forall obeyed h -> Forall (owned owner) h -> ~ In (Crash i) h -> left_by_others root owner f t0 i ->
  0 <= gap -> gap + 10 <= 86400 -> steady i gap 0 (h1 ++ Call i c :: h2) -> 10 <= lasts h1 ->
  let w := run root (start t0 f) h in
  exists name t, has_token root owner (folder w) i name t /\
    (forall name' t', has_token root owner (folder w) i name' t' -> name' = name /\ t' = t) /\
    clock w - t <= gap + 10 /\ exists t', reached t0 h i name t' /\ t - 300 < t' <= t.
Proof. intros root owner t0 f i h0 h1 c h2 gap. exact (published root owner t0 i f h0 h1 c h2 gap). Qed.
Print Assumptions C91_published.

(** Whoever has a token offers itself: a worker that has withdrawn, stopped
    or never offered itself has none; and at no time has a worker two. *)
Theorem C91_withdrawn : forall root owner t0 f i h,
  Forall obeyed h -> Forall (owned owner) h -> ~ In (Crash i) h -> left_by_others root owner f t0 i ->
  let w := run root (start t0 f) h in
  forall name t, has_token root owner (folder w) i name t ->
    offered i h false = true /\ (forall name' t', has_token root owner (folder w) i name' t' -> name' = name /\ t' = t) /\
    exists t', reached t0 h i name t' /\ t - 300 < t' <= t.
Proof.
  intros root owner t0 f i h Ho Hw Hc Hf w name t (Hi & Hn).
  destruct (J_run root owner t0 i f h Ho Hw Hc Hf) as (_ & J2 & J3 & J4). fold w in J2, J3, J4.
  destruct (J4 name t Hi Hn) as (X1 & X2 & X3 & X4 & X5 & X6). split; [congruence|]. split.
  - intros n' t' (Hi' & Hn'). destruct (J4 n' t' Hi' Hn') as (Y1 & _ & _ & Y4 & _). split; congruence.
  - exists (t_ip (servers w i)). rewrite X1 at 1. split; [auto|]. unfold between_lookups in X5. lia.
Qed.
Print Assumptions C91_withdrawn.

(** A worker that has no address and is found by its name is found by its
    address as soon as it has one: at the next call after ten seconds. *)
Theorem C91_address : forall root owner t0 f i h d c name t,
  Forall obeyed h -> Forall (owned owner) h -> ~ In (Crash i) h -> left_by_others root owner f t0 i ->
  has_token root owner (folder (run root (start t0 f) h)) i name t -> (forall a, name <> dotted a) ->
  (10 <= d)%N -> want c = true -> served c -> owner (identity c) = i ->
  exists t', has_token root owner (folder (run root (start t0 f) (h ++ [Tick d; Call i c]))) i (identity c) t'.
Proof. intros. eapply new_address; eauto. Qed.
Print Assumptions C91_address.

(** Tokens of workers that are gone go too: after the call of any worker, no
    token is older than a day and a half. *)
Theorem C91_orphans : forall root t0 f h i c,
  (forall p t, In (p, t) f -> t <= t0) -> Forall obeyed (h ++ [Call i c]) ->
  let w := run root (start t0 f) (h ++ [Call i c]) in
  forall p t, In (p, t) (folder w) -> clock w - 36 * 60 * 60 < t <= clock w.
Proof. intros root t0 f h i c. exact (orphans root i t0 f h c). Qed.
Print Assumptions C91_orphans.

(** A client takes the workers it is given by name; if none are, those that
    have tokens in any of the folders, in the order of the folders, but not
    its own addresses. *)
Theorem C91_client : forall ws paths (listing : str -> list str) mine,
  Forall plain_name ws -> paths <> [] -> Forall (fun x => path_text (snd (fst x))) paths ->
  (forall r n, In n (listing r) -> ~ In "/"%char n) ->
  find_workers (Some (semicolons ws)) (Some (semicolons (map pad paths))) (fun r => map (fun n => r ++ n) (listing r)) mine =
  Some (match filter not_empty ws with
        | [] => filter (not_mine mine) (flat_map (fun x => listing (snd (fst x) ++ L "/main/22.linux/")) paths)
        | given => given
        end).
Proof. exact client. Qed.
Print Assumptions C91_client.

(** *** Cases *)
Definition root : str := L "/b/main/22.linux/".
Definition told (w : bool) (h : string) (a : N) : call := Call_ w (L h) [] a 1 true true true true.
Definition refused (w : bool) (h : string) (a : N) : call := Call_ w (L h) [] a 1 false true true true.
Definition owner (n : str) : nat := if str_eqb n (L "10.0.0.1") then 0%nat else if str_eqb n (L "10.0.0.9") then 0%nat else 1%nat.
Definition one : N := 16777226.   (* 10.0.0.1 *)
Definition nine : N := 150994954. (* 10.0.0.9 *)

(** Worker 0 gets another address; worker 1 is withdrawn. *)
Example C91_case :
  let h1 := [Call 0 (told true "w" one); Tick 10] in
  let h2 := [Tick 400; Call 1 (told false "v" 0); Call 0 (told true "w" nine); Tick 5] in
  let h := [Tick 3; Call 1 (told true "v" 0); Tick 20; Call 1 (told true "v" 0)] ++ h1 ++ Call 0 (told true "w" one) :: h2 in
  Forall obeyed h /\ Forall (owned owner) h /\ ~ In (Crash 0) h /\ left_by_others root owner [(root ++ L "old", 0)] 5 0 /\
  steady 0 3600 0 (h1 ++ Call 0 (told true "w" one) :: h2) /\ 10 <= lasts h1 /\
  folder (run root (start 5 [(root ++ L "old", 0)]) h) = [(root ++ L "10.0.0.9", 438); (root ++ L "old", 0)] /\
  folder (run root (start 5 [(root ++ L "old", 0)]) (h ++ [Tick 90000; Call 0 (told false "w" nine)])) = [] /\
  find_workers (Some []) (Some (L "/b ; /c")) (fun r => if str_eqb r root then [root ++ L "10.0.0.9"; root ++ L "v"] else []) [L "10.0.0.9"] = Some [L "v"].
Proof.
  cbv zeta. split; [repeat constructor; discriminate|]. split; [repeat constructor|].
  split. { cbn. intuition discriminate. }
  split. { intros p s [H|[]]. assert (Ep : root ++ L "old" = p) by (exact (f_equal fst H)). assert (Es : 0 = s) by (exact (f_equal snd H)). subst p s. split; [lia|]. intros n E. apply app_inv_head in E. subst n. vm_compute. discriminate. }
  split. { cbn. repeat split; lia. }
  split; [cbn; lia|]. split; [vm_compute; reflexivity|]. split; [vm_compute; reflexivity|]. vm_compute. reflexivity.
Qed.

(** A worker without an address gets one. *)
Example C91_address_case :
  let h := [Tick 10; Call 1 (told true "v" 0)] in
  Forall obeyed h /\ Forall (owned owner) h /\ left_by_others root owner [] 5 1 /\ has_token root owner (folder (run root (start 5 []) h)) 1 (L "v") 15 /\
  served (told true "v" 33554442) /\ owner (identity (told true "v" 33554442)) = 1%nat /\
  folder (run root (start 5 []) (h ++ [Tick 10; Call 1 (told true "v" 33554442)])) = [(root ++ L "10.0.0.2", 25)].
Proof.
  cbv zeta. split; [repeat constructor; discriminate|]. split; [repeat constructor|]. split; [intros p s []|]. split; [split; vm_compute; auto|].
  split; [repeat split; discriminate|]. split; vm_compute; reflexivity.
Qed.

(** *** What does not hold *)

(** A worker that was killed and started again, and does not offer itself,
    still has its old token, however often it says so. *)
Theorem C91_restart_refuted :
  ~ (forall root owner t0 h i, Forall obeyed h -> Forall (owned owner) h -> offered i h false = false ->
       forall name t, ~ has_token root owner (folder (run root (start t0 []) h)) i name t).
Proof.
  intro H.
  apply (H root (fun _ => 0%nat) 0 [Tick 10; Call 0 (told true "w" one); Crash 0; Call 0 (told false "w" one); Tick 3600; Call 0 (told false "w" one)] 0%nat)
    with (name := L "10.0.0.1") (t := 10).
  - repeat constructor; discriminate.
  - repeat constructor.
  - reflexivity.
  - split; [left; vm_compute; reflexivity|reflexivity].
Qed.
Print Assumptions C91_restart_refuted.

(** A token that could not be removed when the worker withdrew is not
    removed by the calls that follow, though they could. *)
Theorem C91_retry_refuted :
  ~ (forall root owner t0 h c i, Forall (owned owner) (h ++ [Call i c]) -> ~ In (Crash i) h -> served c -> want c = false ->
       forall name t, ~ has_token root owner (folder (run root (start t0 []) (h ++ [Call i c]))) i name t).
Proof.
  intro H.
  apply (H root (fun _ => 0%nat) 0 [Tick 10; Call 0 (told true "w" one); Call 0 (refused false "w" one); Tick 3600] (told false "w" one) 0%nat)
    with (name := L "10.0.0.1") (t := 10).
  - repeat constructor.
  - cbn. intuition discriminate.
  - repeat constructor; discriminate.
  - reflexivity.
  - split; [left; vm_compute; reflexivity|reflexivity].
Qed.
Print Assumptions C91_retry_refuted.

(** The name of a token is not always one by which others reach the machine:
    only one of the local addresses is refused.  A host name that stands for
    127.0.1.1, as is usual on Debian, gives a token by which every client
    reaches itself. *)
Theorem C91_local_refuted :
  ~ (forall root t0 h p t, Forall obeyed h -> In (p, t) (folder (run root (start t0 []) h)) ->
       forall rest, p <> root ++ L "127." ++ rest).
Proof.
  intro H. apply (H root 0 [Tick 10; Call 0 (told true "w" 16842879)] (root ++ L "127.0.1.1") 10) with (rest := L "0.1.1").
  - repeat constructor; discriminate.
  - left. vm_compute. reflexivity.
  - reflexivity.
Qed.
Print Assumptions C91_local_refuted.

(** A machine that is found by its host name finds itself. *)
Theorem C91_self_refuted :
  ~ (forall c listing mine l, served c -> In (L "127.0.0.1") mine ->
       find_workers None (Some (L "/b")) listing mine = Some l ->
       (forall r, listing r = map fst (folder (run r (start 0 []) [Tick 10; Call 0 c]))) ->
       my_ip c = 0%N \/ my_ip c = 16777343%N -> ~ In (my_host c) l).
Proof.
  intro H.
  apply (H (told true "w" 0) (fun r => map fst (folder (run r (start 0 []) [Tick 10; Call 0 (told true "w" 0)]))) [L "127.0.0.1"] [L "w"]).
  - repeat constructor; discriminate.
  - left. reflexivity.
  - vm_compute. reflexivity.
  - reflexivity.
  - left. reflexivity.
  - left. reflexivity.
Qed.
Print Assumptions C91_self_refuted.

(** A worker with tokens in two of the folders is found twice (C88 has what
    comes of that); and a semicolon at the end of the list of folders names
    a folder at the root of the disk. *)
Theorem C91_twice_refuted :
  ~ (forall path listing l, (forall r, NoDup (listing r)) -> find_workers None (Some path) listing [] = Some l -> NoDup l).
Proof.
  intro H. assert (X : NoDup [L "w"; L "w"]).
  { apply (H (L "/b;/c") (fun r => [r ++ L "w"])); [intro; repeat constructor; auto|vm_compute; reflexivity]. }
  inversion X as [|? ? N _]; subst. apply N. left. reflexivity.
Qed.
Print Assumptions C91_twice_refuted.
Example C91_last_semicolon : roots (L "/b;") = [L "/b/main/22.linux/"; L "/main/22.linux/"].
Proof. vm_compute. reflexivity. Qed.

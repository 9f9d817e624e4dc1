(** C39: conditions are evaluated as written.  C51: integer assignments store the integer. *)
From Coq Require Import List Bool ZArith Ascii String NArith Lia.
From Verif Require Import M_Path M_Cond S_Cond P_Cond.
Import ListNotations.
Local Open Scope Z_scope.

(** Every condition that has a meaning is accepted, and the value is that meaning: '!' binds tightest, the logical operators are
    applied from left to right, brackets group. *)
Theorem C39_evaluated_as_written : forall env c b,
  meaning env c = Some b -> parse env (show c) = Some b.
Proof. exact parse_show. Qed.
Print Assumptions C39_evaluated_as_written.

(** Whatever the header of an If() is found to be, brackets are not closed in it before they are opened. *)
Theorem C39_headers_balanced : forall toks header rest,
  braced 0 toks = Some (header, rest) -> balanced_from 0 header.
Proof. intros toks header rest H. eapply braced_balanced, H. Qed.
Print Assumptions C39_headers_balanced.

(** Nothing but conditions is accepted, and never with another value: an accepted header is the text of a condition whose meaning is
    the value given.  Missing for the full property: headers with an integer whose low byte is ')' (41, 297, ...). *)
Theorem C39_nothing_else_accepted_partial : forall env l b,
  balanced_from 0 l -> (forall t, In t l -> ~ looks_like_bracket t) ->
  parse env l = Some b -> exists c, show c = l /\ meaning env c = Some b.
Proof. intros env l b H1 H2 H3. eapply parse_only; eauto. Qed.
Print Assumptions C39_nothing_else_accepted_partial.

(** Such an integer closes a bracket: the header of  If( ( true 41 ) )  is accepted although no condition reads like that. *)
Theorem C39_integer_closes_bracket_refuted :
  exists env l, balanced_from 0 l /\ parse env l = Some true /\ ~ exists c, show c = l.
Proof.
  exists (fun _ => None), [TLP; TBool true; TNum 41; TRP]. split; [exact I|]. split; [reflexivity|].
  intros [c H]. destruct c as [p m|a r b|a r b|a n b|a n b]; cbn [show] in H.
  - destruct p as [t|p|c]; cbn [show_part app] in H.
    + destruct m as [|o q m]; [discriminate|]. destruct o; discriminate.
    + discriminate.
    + injection H as H. destruct c as [p m'|a r b|a r b|a n b|a n b]; cbn [show app] in H.
      * destruct p as [t|p|c]; cbn [show_part app] in H; try discriminate.
        injection H as _ H. destruct m' as [|o q m']; [discriminate|]. destruct o; discriminate.
      * destruct r; discriminate.
      * destruct r; discriminate.
      * destruct n; discriminate.
      * destruct n; discriminate.
  - destruct r; discriminate.
  - destruct r; discriminate.
  - destruct n; discriminate.
  - destruct n; discriminate.
Qed.
Print Assumptions C39_integer_closes_bracket_refuted.

(** The parser always stops: more depth never changes the answer. *)
Theorem C39_parser_stops : forall env l n, (fuel l <= n)%nat -> pexp env n l false = pexp env (fuel l) l false.
Proof. exact parse_stable. Qed.
Print Assumptions C39_parser_stops.

(** The order of strings is the dictionary order of their bytes. *)
Theorem C39_string_order : forall a b,
  (string_order a b = Eq <-> a = b) /\
  (string_order a b = Lt <->
     exists p, (a = p /\ exists y s, b = p ++ y :: s) \/
               (exists x y r s, a = p ++ x :: r /\ b = p ++ y :: s /\ (N_of_ascii x < N_of_ascii y)%N)).
Proof.
  intros a b. split; [apply order_eq|]. revert b. induction a as [|x a IH]; intros [|y b]; cbn [string_order].
  - split; [discriminate|]. intros [p [[<- [y [s H]]]|[x [y [r [s [H _]]]]]]]; [discriminate|destruct p; discriminate].
  - split; [|reflexivity]. intros _. exists []. left. split; [reflexivity|]. eexists _, _. reflexivity.
  - split; [discriminate|]. intros [p [[<- [y [s H]]]|[x' [y [r [s [_ [H _]]]]]]]]; [discriminate|destruct p; discriminate].
  - assert (INJ : forall u v, N_of_ascii u = N_of_ascii v -> u = v)
      by (intros u v H; rewrite <- (ascii_N_embedding u), <- (ascii_N_embedding v), H; reflexivity).
    destruct (N.compare_spec (N_of_ascii x) (N_of_ascii y)) as [E|E|E].
    + apply INJ in E. subst y. rewrite IH. split.
      * intros [p [[-> [y [s ->]]]|[u [v [r [s (-> & -> & H)]]]]]]; exists (x :: p).
        -- left. split; [reflexivity|]. exists y, s. reflexivity.
        -- right. exists u, v, r, s. auto.
      * intros [p [[<- [y [s H]]]|[u [v [r [s (H1 & H2 & H)]]]]]].
        -- injection H as ->. exists a. left. split; [reflexivity|]. exists y, s. reflexivity.
        -- destruct p as [|z p].
           ++ injection H1 as <- _. injection H2 as <- _. lia.
           ++ injection H1 as <- ->. injection H2 as ->. exists p. right. exists u, v, r, s. auto.
    + split; [|reflexivity]. intros _. exists []. right. exists x, y, a, b. auto.
    + split; [discriminate|]. intros [p [[<- [z [s H]]]|[u [v [r [s (H1 & H2 & H)]]]]]].
      * injection H as -> _. lia.
      * destruct p as [|z p]; [injection H1 as <- _; injection H2 as <- _; lia|]. injection H1 as <- _. injection H2 as -> _. lia.
Qed.
Print Assumptions C39_string_order.

(** Not-trivial case:  !.A || ( .N > 3 ) && true  with .A true and .N 2 is ((!true) || (2 > 3)) && true; and
    true || true && false  is (true || true) && false. *)
Example C39_case :
  let env := fun v : str => if list_eq_dec ascii_dec v (L "A") then Some (VBool true)
                            else if list_eq_dec ascii_dec v (L "N") then Some (VInt 2)
                            else if list_eq_dec ascii_dec v (L "S") then Some (VArr [L "x"; L "y"]) else None in
  let c := Chain (Not (Plain (TVar (L "A")))) (Then LOr (Brackets (Numbers (TVar (L "N")) Greater (TNum 3))) (Then LAnd (Plain (TBool true)) Done)) in
  let d := Chain (Plain (TBool true)) (Then LOr (Plain (TBool true)) (Then LAnd (Plain (TBool false)) Done)) in
  let i := StringIn (TStr (L "z")) true (TVar (L "S")) in
  meaning env c = Some false /\ parse env (show c) = Some false /\
  meaning env d = Some false /\ parse env (show d) = Some false /\
  meaning env i = Some true /\ parse env (show i) = Some true /\
  balanced_from 0 (show c) /\ (forall t, In t (show c) -> ~ looks_like_bracket t) /\
  parse env [TRP; TBool true] = None.
Proof.
  cbv zeta. do 7 (split; [vm_compute; exact I || reflexivity|]). split; [|reflexivity].
  intros t Ht [z [-> E]]. cbn in Ht. repeat (destruct Ht as [Ht|Ht]; [try discriminate; injection Ht as <-; discriminate|]). exact Ht.
Qed.

(** C51.  `.X = z`, `.X + z` and `.X - z` store z, the sum and the difference, if the variable is an integer or new and the result is
    a 32-bit integer.  Missing for the full property: integers whose low byte is '[' or '{' (91, 123, 347, ...). *)
Theorem C51_integer_stored_partial : forall z : Z, z mod 256 <> 91 -> z mod 256 <> 123 ->
  assign_int None OAssign z = Stored (VInt z) /\
  forall old,
    (int32 z = true -> assign_int (Some (VInt old)) OAssign z = Stored (VInt z)) /\
    (int32 (old + z) = true -> assign_int (Some (VInt old)) OPlus z = Stored (VInt (old + z))) /\
    (int32 (old - z) = true -> assign_int (Some (VInt old)) OMinus z = Stored (VInt (old - z))).
Proof.
  intros z H1 H2.
  assert (E1 : is_square_left (TNum z) = false) by (cbn; apply Z.eqb_neq; exact H1).
  assert (E2 : is_curly_left (TNum z) = false) by (cbn; apply Z.eqb_neq; exact H2).
  unfold assign_int. rewrite E1, E2. split; [reflexivity|]. intros old. repeat split; intros ->; reflexivity.
Qed.
Print Assumptions C51_integer_stored_partial.

(** An integer is never stored as anything but what the assignment says, and never over a variable of another type. *)
Theorem C51_nothing_else_stored : forall old op (z : Z) v, assign_int old op z = Stored v ->
  match old with
  | None => v = VInt z /\ op <> OPlus /\ op <> OMinus
  | Some (VInt x) => v = VInt (match op with OPlus => x + z | OMinus => x - z | _ => z end)
  | Some _ => False
  end.
Proof.
  intros old op z v. unfold assign_int. destruct (is_curly_left _); [discriminate|]. destruct (is_square_left _); [discriminate|].
  destruct old as [[]|]; try discriminate.
  - destruct (int32 _); [|discriminate]. intros H. injection H as <-. destruct op; reflexivity.
  - destruct op; try discriminate; intros H; injection H as <-; repeat split; discriminate.
Qed.
Print Assumptions C51_nothing_else_stored.

(** `.X = 123` is an error: the number is taken for an opening bracket. *)
Theorem C51_integer_opens_bracket_refuted :
  exists z, (-2147483648 <= z <= 2147483647)%Z /\ assign_int None OAssign z = Error1002.
Proof. exists 123%Z. split; [lia|reflexivity]. Qed.
Print Assumptions C51_integer_opens_bracket_refuted.

Example C51_case : assign_int (Some (VInt 40)) OPlus 2 = Stored (VInt 42) /\ assign_int (Some (VInt 0)) OAssign 347 = Error1002.
Proof. split; reflexivity. Qed.

(** C94: what programs print is read whole.  C95: Exec() and Test(). *)
From Coq Require Import String Ascii List Arith Bool ZArith Lia.
From Verif Require Import M_Path M_Args M_Proc S_Proc S_Args S_Drv P_Args P_Drv P_Proc P_Proc2 P_Proc3 P_Proc4.
Import ListNotations.
Local Open Scope list_scope.
Local Notation "'length'" := List.length.

(** When the reading is over and the build was not aborted, all that the program has written is there, in its order, and its status is known,
    whatever the sizes of pipes and reads and the order in which program and reader take their turns. *)
Theorem C94_whole : forall cap limit code script h, alone h ->
  let w := run cap limit code (spawned script) h in at_ w = Done true -> abort w = false ->
  got_o w = prints true script /\ got_e w = prints false script /\ ended w = Some code.
Proof. exact whole_run. Qed.
Print Assumptions C94_whole.
(** At any other time, and when the program is killed, it is what the program has written first. *)
Theorem C94_part : forall cap limit code script h, alone h ->
  let w := run cap limit code (spawned script) h in
  (exists x, prints true script = got_o w ++ x) /\ exists x, prints false script = got_e w ++ x.
Proof. exact prefixes. Qed.
Print Assumptions C94_part.
(** Processes that the program has started may write too: what they and the program have written until the program ends is there. *)
Theorem C94_children : forall cap limit code script h1 h2,
  let w1 := run cap limit code (spawned script) h1 in let w2 := run cap limit code w1 [Run] in let w := run cap limit code w2 h2 in
  ended w1 = None -> ended w2 <> None -> at_ w = Done true -> abort w = false ->
  (exists x, got_o w = wrote_o w2 ++ x) /\ exists x, got_e w = wrote_e w2 ++ x.
Proof. exact captured. Qed.
Print Assumptions C94_children.
(** Neither waits for the other for ever. *)
Theorem C94_ends : forall cap limit code script h k, 0 < cap -> turns k h -> alone h -> undisturbed h -> 40 * length script + 52 <= k ->
  finished (run cap limit code (spawned script) h).
Proof. exact ends. Qed.
Print Assumptions C94_ends.
(** A program that hangs when its time is up is killed, and this is reported. *)
Theorem C94_timeout : forall cap limit code script h h', let w := run cap limit code (spawned script) h in
  abort w = false -> ended w = None -> 0 < limit <= clock w -> hangs h' -> 20 * (length (pipe_o w) + length (pipe_e w)) + 16 <= steps h' ->
  at_ (run cap limit code w h') = Done false /\ ended (run cap limit code w h') = Some (-9)%Z.
Proof. exact time_out. Qed.
Print Assumptions C94_timeout.
(** It is killed for no other reason. *)
Theorem C94_no_early_timeout : forall cap limit code script h, alone h ->
  let w := run cap limit code (spawned script) h in at_ w = Done false -> 0 < limit <= clock w.
Proof. intros cap limit code script h AL w D. destruct (scripted_run cap limit code script h AL) as (_&_&_&X). fold w in X. now destruct (X D). Qed.
Print Assumptions C94_no_early_timeout.

(** *** What does not hold *)
Definition chatter : list event := Tick 400 :: Run :: repeat (Step 0) 5.
Lemma chat limit code c k : forall w, todo w = repeat (true, "x"%char) k -> ended w = None -> abort w = false -> at_ w = Top -> pipe_o w = [] -> pipe_e w = [] ->
  let w' := run (S c) limit code w (concat (repeat chatter k)) in clock w' = clock w + 400 * k /\ ended w' = None /\ at_ w' = Top.
Proof.
  induction k as [|k IH]; intros w T E A P Q1 Q2; [cbn; repeat split; auto; lia|]. cbn [repeat concat]. rewrite run_app.
  destruct w as [td en po pe wo we ck ab pl go_ ge vo ve ex]. cbn [todo ended abort at_ pipe_o pipe_e] in *. subst.
  set (w1 := run (S c) limit code _ chatter).
  assert (W : w1 = World (repeat (true, "x"%char) k) None [] [] (wo ++ ["x"%char]) we (ck + 400) false Top (go_ ++ ["x"%char]) ge (length go_) (length ge) ex).
  { unfold w1. change chatter with ([Tick 400; Run; Step 0; Step 0; Step 0; Step 0] ++ [Step 0]). rewrite run_snoc.
    match goal with |- step _ _ _ ?u _ = _ => assert (U : u = World (repeat (true, "x"%char) k) None [] [] (wo ++ ["x"%char]) we (ck + 400) false Check (go_ ++ ["x"%char]) ge (length go_) (length ge) ex) by reflexivity; rewrite U end.
    cbn [step]. unfold read_step. cbn [at_ prev_o got_o]. replace (length go_ =? length (go_ ++ ["x"%char])) with false by (symmetry; apply Nat.eqb_neq; rewrite app_length; cbn; lia). reflexivity. }
  rewrite W. clear w1 W. destruct (IH (World (repeat (true, "x"%char) k) None [] [] (wo ++ ["x"%char]) we (ck + 400) false Top (go_ ++ ["x"%char]) ge (length go_) (length ge) ex)) as (X&Y&Z); try reflexivity.
  split; [rewrite X; cbn [clock]; lia|]. auto.
Qed.
(** A program that writes something at least every half second is never found to be late, however long it takes. *)
Theorem C94_timeout_refuted : forall cap limit code k, 0 < cap ->
  exists script, let w := run cap limit code (spawned script) (concat (repeat chatter k)) in clock w = 400 * k /\ ended w = None /\ ~ finished w.
Proof.
  intros [|c] limit code k C; [lia|]. exists (repeat (true, "x"%char) k). destruct (chat limit code c k (spawned (repeat (true, "x"%char) k))) as (X&Y&Z); try reflexivity.
  cbv zeta in X, Y, Z |- *. split; [exact X|]. split; [exact Y|]. intros (b&W). congruence.
Qed.
Print Assumptions C94_timeout_refuted.
Definition leftover : list event := Tick 400 :: Child true "x" :: repeat (Step 0) 5.
Lemma left limit code c k : forall w, ended w = Some code -> abort w = false -> at_ w = Top -> pipe_o w = [] -> pipe_e w = [] ->
  let w' := run (S c) limit code w (concat (repeat leftover k)) in clock w' = clock w + 400 * k /\ ended w' = Some code /\ at_ w' = Top.
Proof.
  induction k as [|k IH]; intros w E A P Q1 Q2; [cbn; repeat split; auto; lia|]. cbn [repeat concat]. rewrite run_app.
  destruct w as [td en po pe wo we ck ab pl go_ ge vo ve ex]. cbn [todo ended abort at_ pipe_o pipe_e] in *. subst.
  set (w1 := run (S c) limit code _ leftover).
  assert (W : w1 = World td (Some code) [] [] (wo ++ ["x"%char]) we (ck + 400) false Top (go_ ++ ["x"%char]) ge (length go_) (length ge) ex).
  { unfold w1. change leftover with ([Tick 400; Child true "x"; Step 0; Step 0; Step 0; Step 0] ++ [Step 0]). rewrite run_snoc.
    match goal with |- step _ _ _ ?u _ = _ => assert (U : u = World td (Some code) [] [] (wo ++ ["x"%char]) we (ck + 400) false Check (go_ ++ ["x"%char]) ge (length go_) (length ge) ex) by reflexivity; rewrite U end.
    cbn [step]. unfold read_step. cbn [at_ prev_o got_o]. replace (length go_ =? length (go_ ++ ["x"%char])) with false by (symmetry; apply Nat.eqb_neq; rewrite app_length; cbn; lia). reflexivity. }
  rewrite W. clear w1 W. destruct (IH (World td (Some code) [] [] (wo ++ ["x"%char]) we (ck + 400) false Top (go_ ++ ["x"%char]) ge (length go_) (length ge) ex)) as (X&Y&Z); try reflexivity.
  split; [rewrite X; cbn [clock]; lia|]. auto.
Qed.
(** A program that has ended is waited for as long as a process it has started goes on writing, even beyond the limit. *)
Theorem C94_leftover_refuted : forall cap limit code k, 0 < cap ->
  let w := run cap limit code (spawned []) (Run :: concat (repeat leftover k)) in clock w = 400 * k /\ ended w = Some code /\ ~ finished w.
Proof.
  intros [|c] limit code k C; [lia|]. destruct (left limit code c k (run (S c) limit code (spawned []) [Run])) as (X&Y&Z); try reflexivity.
  cbv zeta in X, Y, Z |- *. change (Run :: concat (repeat leftover k)) with ([Run] ++ concat (repeat leftover k)). rewrite run_app. split; [exact X|]. split; [exact Y|]. intros (b&W). congruence.
Qed.
Print Assumptions C94_leftover_refuted.

(** A small pipe, a program that writes to both outputs, and two orders of turns. *)
Definition talk : list act := [(true, "a"); (true, "b"); (false, "!"); (true, "c")]%char.
Example C94_case :
  let h := concat (repeat [Run; Step 0] 25) in let g := concat (repeat [Step 7; Run; Run; Tick 9; Step 1] 15) in
  alone h /\ turns 25 h /\ undisturbed h /\
  (let w := run 2 0 3 (spawned talk) h in at_ w = Done true /\ got_o w = L "abc" /\ got_e w = L "!" /\ ended w = Some 3%Z) /\
  (let w := run 1 500 3 (spawned talk) g in at_ w = Done true /\ got_o w = L "abc" /\ got_e w = L "!" /\ ended w = Some 3%Z).
Proof.
  cbv zeta. split; [intros o b I; apply in_concat in I as (x&I&J); apply repeat_spec in I; subst; cbn in J; intuition discriminate|].
  split; [exists (repeat [Run; Step 0] 25); split; [reflexivity|]; split; [apply repeat_length|apply Forall_forall; intros x I; apply repeat_spec in I; subst; split; [now left|exists 0; right; now left]]|].
  split; [intros I; apply in_concat in I as (x&I&J); apply repeat_spec in I; subst; cbn in J; intuition discriminate|].
  split; vm_compute; repeat split.
Qed.
(** A program that prints once and hangs. *)
Example C94_timeout_case : let w := run 4 900 0 (spawned talk) [Run; Tick 1000; Step 0] in
  abort w = false /\ ended w = None /\ 0 < 900 <= clock w /\ length (pipe_o w) = 1 /\ hangs (repeat (Step 0) 36) /\ steps (repeat (Step 0) 36) = 36 /\
  (let v := run 4 900 0 w (repeat (Step 0) 36) in at_ v = Done false /\ got_o v = L "a").
Proof.
  cbv zeta. split; [reflexivity|]. split; [reflexivity|]. split; [cbn; lia|]. split; [reflexivity|]. split; [intros e I; apply repeat_spec in I; left; now exists 0|]. split; [reflexivity|]. split; vm_compute; reflexivity.
Qed.

(** *** C95 *)
(** Exec() succeeds exactly when the program ends with the expected status; its output is what the program has written, when it is asked for and
    there is room on the disk. *)
Theorem C95_exec : forall cap code script h expected std show openable room old, alone h ->
  let w := run cap 0 code (spawned script) h in finished w -> abort w = false ->
  let '(r, f, shown) := exec expected std show openable room (outcome_of w) old in
  (r = Ok_ <-> code = expected) /\ (r = Failed_ <-> code <> expected) /\
  (r = Ok_ -> std = true -> openable = true -> length (prints true script) <= room -> f = Some (prints true script)) /\ (std = false \/ r <> Ok_ -> f = old) /\
  (shown = true <-> r <> Ok_ \/ show = true).
Proof.
  intros cap code script h expected std show openable room old AL w (b&D) AB. unfold exec, outcome_of. cbn [started aborted negb status out]. rewrite AB.
  destruct b; [|exfalso; destruct (scripted_run cap 0 code script h AL) as (_&_&_&X); fold w in X; destruct (X D); lia].
  destruct (whole_run cap 0 code script h AL D AB) as (G1&G2&E). fold w in G1, G2, E. rewrite E, G1.
  destruct (Z.eqb_spec code expected) as [->|N]; cbn [negb].
  - assert (SH : show = true <-> Ok_ <> Ok_ \/ show = true) by (split; [now right|intros [X|X]; congruence]).
    destruct std; (split; [split; reflexivity|]); (split; [split; congruence|]); (split; [|split; [intros [X|X]; congruence|exact SH]]).
    + intros _ _ OP RM. unfold written. rewrite OP. f_equal. now apply firstn_all2.
    + congruence.
  - split; [split; congruence|]. split; [split; congruence|]. split; [congruence|]. split; [reflexivity|]. split; [left; discriminate|reflexivity].
Qed.
Print Assumptions C95_exec.
(** Test() succeeds exactly when the program ends by itself with status zero and its output could be stored; the output is stored and shown in
    full also when it does not. *)
Theorem C95_test : forall cap limit code script h show openable room old, alone h ->
  let w := run cap limit code (spawned script) h in finished w -> abort w = false ->
  let '(r, f, shown) := test show openable room (outcome_of w) old in
  (r = Ok_ <-> at_ w = Done true /\ code = 0%Z /\ openable = true /\ length (got_o w ++ got_e w) <= room) /\ r <> Aborted_ /\
  (at_ w = Done true -> openable = true -> length (prints true script ++ prints false script) <= room -> f = Some (prints true script ++ prints false script)) /\
  (shown = true <-> at_ w = Done false \/ code <> 0%Z \/ show = true).
Proof.
  intros cap limit code script h show openable room old AL w (b&D) AB. unfold test, outcome_of. cbn [started aborted negb status out err whole]. rewrite AB, D.
  destruct b.
  - destruct (whole_run cap limit code script h AL D AB) as (G1&G2&E). fold w in G1, G2, E. rewrite E, G1, G2. cbn [negb orb]. unfold written.
    set (t := prints true script ++ prints false script). assert (SH : (negb (code =? 0)%Z || show = true) <-> Done true = Done false \/ code <> 0%Z \/ show = true).
    { destruct (Z.eqb_spec code 0); destruct show; cbn; intuition (try congruence). }
    destruct openable; [|split; [intuition discriminate|]; split; [discriminate|]; split; [discriminate|exact SH]].
    rewrite firstn_length. destruct (Nat.ltb_spec (Nat.min room (length t)) (length t)) as [LT|LT].
    + split; [split; [discriminate|intros (_&_&_&X); lia]|]. split; [discriminate|]. split; [intros _ _ X; lia|exact SH].
    + assert (RM : length t <= room) by lia. split; [|split; [|split; [intros _ _ _; now rewrite firstn_all2|exact SH]]].
      * destruct (Z.eqb_spec code 0); cbn [negb]; intuition (try congruence).
      * destruct (negb _); discriminate.
  - cbn [negb orb]. assert (SH : true = true <-> Done false = Done false \/ code <> 0%Z \/ show = true) by intuition.
    destruct (written openable room (got_o w ++ got_e w)); [destruct (_ <? _)|]; (split; [intuition discriminate|]; split; [discriminate|]; split; [discriminate|exact SH]).
Qed.
Print Assumptions C95_test.
(** When the build is aborted nothing is written. *)
Theorem C95_aborted : forall w, abort w = true -> forall expected std show openable room old,
  exec expected std show openable room (outcome_of w) old = (Aborted_, old, false) /\ test show openable room (outcome_of w) old = (Aborted_, old, false).
Proof. intros w A *. unfold exec, test, outcome_of. cbn [started aborted negb]. now rewrite A. Qed.
Print Assumptions C95_aborted.
(** A program that cannot be started is a failure, unless the build was stopped meanwhile; nothing is written or shown. *)
Theorem C95_unstarted : forall r, started r = false -> forall expected std show openable room old, let x := if aborted r then Aborted_ else Failed_ in
  exec expected std show openable room r old = (x, old, false) /\ test show openable room r old = (x, old, false).
Proof. intros r S0 *. unfold exec, test. rewrite S0. now split. Qed.
Example C95_unstarted_case : exec 0 true true true 9 (Outcome false true false 0 [] []) None = (Aborted_, None, false) /\ exec 0 true true true 9 (Outcome false false false 0 [] []) None = (Failed_, None, false).
Proof. now split. Qed.
Print Assumptions C95_unstarted.
(** The program is given what its options say: the inputs, all of them and in their order, and the output in place of %1 and %2. *)
Theorem C95_arguments : forall nm ins options, exists outss, Forall2 (stands_for nm ins) (tokenize space options) outss /\
  (Forall single (concat outss) -> argv (exec_args nm ins options) = map remove_quotes (concat outss)).
Proof. intros. destruct (exec_argv nm ins options) as (outss&F&E). exists outss. split; [exact F|]. intros S. unfold argv. now rewrite (E S). Qed.
Print Assumptions C95_arguments.
(** In quotes, a name is one argument whatever spaces it has. *)
Theorem C95_quoted : forall f, ~ In quote f -> last f nul <> bslash ->
  argv ([quote] ++ f ++ [quote]) = [f].
Proof.
  intros f N B. assert (P : tokenize space ([quote] ++ f ++ [quote]) = [[quote] ++ f ++ [quote]]).
  { assert (X : forall g acc, ~ In quote g -> (g <> [] -> last g nul <> bslash) -> tok space (Some acc) true (g ++ [quote]) = [rev acc ++ g ++ [quote]]).
    { induction g as [|c g IH]; intros acc NQ LB; [cbn; reflexivity|]. cbn [app tok]. assert (C : Ascii.eqb c quote = false) by (apply eqb_false; intros ->; apply NQ; now left). rewrite C.
      assert (NQ' : ~ In quote g) by (intros I; apply NQ; now right). assert (LB' : g <> [] -> last g nul <> bslash) by (intros G; destruct g; [congruence|apply LB; discriminate]).
      assert (R : tok space (Some (c :: acc)) true (g ++ [quote]) = [rev acc ++ c :: g ++ [quote]]) by (etransitivity; [exact (IH (c :: acc) NQ' LB')|]; cbn [rev]; rewrite <- app_assoc; reflexivity).
      destruct (Ascii.eqb_spec c bslash) as [->|NB].
      - destruct g as [|d g]; [exfalso; apply (LB ltac:(discriminate)); reflexivity|]. cbn [app] in *. assert (D : Ascii.eqb d quote = false) by (apply eqb_false; intros ->; apply NQ'; now left). rewrite D. exact R.
      - rewrite andb_false_r. exact R. }
    unfold tokenize. cbn [app tok]. change (tok space None false (quote :: f ++ [quote])) with (tok space (Some [quote]) true (f ++ [quote])). rewrite X; [reflexivity|exact N|intros _; exact B]. }
  unfold argv. rewrite P. cbn [map]. change ([quote] ++ f ++ [quote]) with (quote :: f ++ [quote]). change (remove_quotes (quote :: f ++ [quote])) with (remove_quotes (f ++ [quote])). rewrite remove_plain by assumption. now rewrite app_nil_r.
Qed.
Print Assumptions C95_quoted.
(** Exec() succeeds also when the output did not fit on the disk. *)
Theorem C95_disk_refuted : forall cap code script h old, alone h -> let w := run cap 0 code (spawned script) h in finished w -> abort w = false -> prints true script <> [] ->
  exec code true false true 0 (outcome_of w) old = (Ok_, Some [], false) /\ exec code true false false 0 (outcome_of w) old = (Ok_, old, false).
Proof.
  intros cap code script h old AL w (b&D) AB N. destruct b; [|exfalso; destruct (scripted_run cap 0 code script h AL) as (_&_&_&X); fold w in X; destruct (X D); lia].
  destruct (whole_run cap 0 code script h AL D AB) as (G1&G2&E). fold w in G1, G2, E. unfold exec, outcome_of. cbn [started aborted negb status out]. rewrite AB, E, Z.eqb_refl. split; reflexivity.
Qed.
Print Assumptions C95_disk_refuted.

Example C95_case :
  let w := run 2 0 3 (spawned talk) (concat (repeat [Run; Step 0] 25)) in
  exec 3 true false true 100 (outcome_of w) None = (Ok_, Some (L "abc"), false) /\ exec 0 true false true 100 (outcome_of w) None = (Failed_, None, true) /\
  test false true 100 (outcome_of w) None = (Failed_, Some (L "abc!"), true).
Proof. vm_compute. repeat split. Qed.
Example C95_arguments_case :
  argv (exec_args (L "out.h") [File (L "a.txt"); Dir [L "d/b.txt"; L "d/my c.txt"]; Dir []] (L "-v -i:""%1"" --out=%2 %3")) =
  [L "-v"; L "-i:a.txt"; L "-i:d/b.txt"; L "-i:d/my c.txt"; L "--out=out.h"; L "%3"].
Proof. vm_compute. reflexivity. Qed.

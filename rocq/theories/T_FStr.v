(** C104: files are written and read whole, and TextFile. *)
From Coq Require Import List Arith Bool Ascii Lia String.
From Verif Require Import M_FStr.
Import ListNotations.
Local Open Scope list_scope.

(** * Proofs. *)
Lemma chunk_min c n : (if c <? n then c else n) = Nat.min c n.
Proof. destruct (Nat.ltb_spec c n); lia. Qed.
Lemma skipn_nil_len {A} n (l : list A) : skipn n l = [] -> List.length l <= n.
Proof. intros H. apply (f_equal (@List.length A)) in H. rewrite skipn_length in H. cbn in H. lia. Qed.
Lemma firstn_add {A} a b (l : list A) : firstn (a + b) l = firstn a l ++ firstn b (skipn a l).
Proof. revert l. induction a as [|a IH]; intros [|x l]; cbn; auto; [now rewrite firstn_nil|now rewrite IH]. Qed.
Lemma skipn_skipn' {A} a b (l : list A) : skipn b (skipn a l) = skipn (a + b) l.
Proof. revert l. induction a as [|a IH]; intros [|x l]; cbn; auto. now rewrite skipn_nil. Qed.

Lemma write_step c k r f rest t : write_loop c (Takes k :: r) f rest t =
  let now := Nat.min k (Nat.min c (List.length rest)) in
  if List.length rest <=? now then Returned (t + now) (f ++ rest) else write_loop c r (f ++ firstn now rest) (skipn now rest) (t + now).
Proof.
  cbn [write_loop]. rewrite chunk_min. cbv zeta. set (now := Nat.min k (Nat.min c (List.length rest))).
  destruct (Nat.leb_spec (List.length rest) now) as [H|H].
  - rewrite skipn_all2, firstn_all2 by lia. reflexivity.
  - destruct (skipn now rest) eqn:S; [apply skipn_nil_len in S; lia|reflexivity].
Qed.
Lemma write_prefix c : forall answers f rest t,
  match write_loop c answers f rest t with
  | Returned n file => t <= n /\ n - t <= List.length rest /\ file = f ++ firstn (n - t) rest /\ (n - t < List.length rest -> In Error answers)
  | Running file => exists n, n <= List.length rest /\ file = f ++ firstn n rest
  end.
Proof.
  induction answers as [|[|k] r IH]; intros f rest t.
  - cbn. exists 0. split; [lia|]. cbn. now rewrite app_nil_r.
  - cbn. replace (t - t) with 0 by lia. cbn. rewrite app_nil_r. repeat split; auto; lia.
  - rewrite write_step. cbv zeta. set (now := Nat.min k (Nat.min c (List.length rest))). destruct (Nat.leb_spec (List.length rest) now) as [H|H].
    + replace (t + now - t) with now by lia. rewrite firstn_all2 by lia. repeat split; lia.
    + specialize (IH (f ++ firstn now rest) (skipn now rest) (t + now)). rewrite skipn_length in IH. destruct (write_loop c r _ _ _) as [n file|file].
      * destruct IH as (A&B&C&D). split; [lia|]. split; [lia|]. split; [|intros; right; apply D; lia].
        replace (n - t) with (now + (n - (t + now))) by lia. now rewrite firstn_add, app_assoc.
      * destruct IH as (n&A&B). exists (now + n). split; [lia|]. now rewrite firstn_add, app_assoc.
Qed.

(** * Theorems. *)
(** What WriteBuffer returns is how much of the buffer was put behind what the file held, from its start on; less than all only after an error; and nothing else gets into the file before it returns. *)
Theorem C104_written : forall chunk answers file buffer n file', write chunk answers file buffer = Returned n file' ->
  n <= List.length buffer /\ file' = file ++ firstn n buffer /\ (n < List.length buffer -> In Error answers) /\ (n = List.length buffer -> file' = file ++ buffer).
Proof.
  intros c a f b n f' E. unfold write in E. pose proof (write_prefix c a f b 0) as P. rewrite E in P. rewrite !Nat.sub_0_r in P. destruct P as (_&A&B&D).
  repeat split; auto. intros ->. now rewrite B, firstn_all.
Qed.
Theorem C104_running : forall chunk answers file buffer file', write chunk answers file buffer = Running file' -> exists n, file' = file ++ firstn n buffer.
Proof. intros c a f b f' E. pose proof (write_prefix c a f b 0) as P. unfold write in E. rewrite E in P. destruct P as (n&_&P). now exists n. Qed.
Print Assumptions C104_written.
Print Assumptions C104_running.

(** It returns, with all written, if each call takes at least a byte. *)
Definition takes_some (a : answer) : Prop := exists k, a = Takes (S k).
Lemma write_ends c : 0 < c -> forall answers f rest t, Forall takes_some answers -> 0 < List.length answers -> List.length rest <= List.length answers -> write_loop c answers f rest t = Returned (t + List.length rest) (f ++ rest).
Proof.
  intros C. induction answers as [|a r IH]; intros f rest t F N L; [cbn in N; lia|]. inversion F as [|? ? (k&->) F']; subst. rewrite write_step. cbv zeta.
  remember (Nat.min (S k) (Nat.min c (List.length rest))) as now eqn:Q. destruct (Nat.leb_spec (List.length rest) now) as [H|H]; [now replace now with (List.length rest) by lia|].
  cbn [List.length] in L. rewrite IH; auto; rewrite ?skipn_length; try lia. rewrite <- app_assoc, firstn_skipn. f_equal. lia.
Qed.
Theorem C104_writes : forall chunk answers file buffer, 0 < chunk -> Forall takes_some answers -> 0 < List.length answers -> List.length buffer <= List.length answers ->
  write chunk answers file buffer = Returned (List.length buffer) (file ++ buffer).
Proof. intros c a f b C F N L. unfold write. now rewrite write_ends. Qed.
Print Assumptions C104_writes.

(** But if the system takes nothing and reports no error, it never returns. *)
Theorem C104_forever_refuted : forall chunk file buffer, buffer <> [] -> forall n, write chunk (repeat (Takes 0) n) file buffer = Running file.
Proof.
  intros c f b B n. unfold write. generalize 0 at 2 as t. induction n as [|n IH]; intros t; [reflexivity|]. cbn [repeat]. rewrite write_step. cbn [Nat.min firstn skipn]. cbv zeta.
  destruct b as [|x b]; [contradiction|]. cbn [List.length Nat.leb]. rewrite app_nil_r. apply IH.
Qed.
Print Assumptions C104_forever_refuted.

(** ReadBuffer gives the first bytes of the file, as many as are wanted and are there, or fewer after an error. *)
Lemma read_step c k r left w b : 0 < c -> read_loop c (Gives k :: r) left w b =
  let now := Nat.min (Nat.min (S k) (Nat.min c w)) (List.length left) in
  if now =? 0 then Got b else if w <=? now then Got (b ++ firstn now left) else read_loop c r (skipn now left) (w - now) (b ++ firstn now left).
Proof.
  intros C. cbn [read_loop]. rewrite chunk_min. cbv zeta. set (m := Nat.min (S k) (Nat.min c w)).
  assert (E : firstn (Nat.min m (List.length left)) left = firstn m left) by (rewrite <- firstn_firstn, firstn_all; reflexivity).
  destruct (firstn m left) as [|x l] eqn:F.
  - apply (f_equal (@List.length ascii)) in F. rewrite firstn_length in F. cbn [List.length] in F. now rewrite F.
  - rewrite <- F. rewrite <- F in E. rewrite E, firstn_length. assert (G : Nat.min m (List.length left) <> 0) by (apply (f_equal (@List.length ascii)) in F; rewrite firstn_length in F; cbn [List.length] in F; lia).
    destruct (Nat.eqb_spec (Nat.min m (List.length left)) 0) as [?|_]; [contradiction|].
    destruct (Nat.eqb_spec (w - Nat.min m (List.length left)) 0), (Nat.leb_spec w (Nat.min m (List.length left))); auto; lia.
Qed.
Lemma read_prefix c (C : 0 < c) : forall replies left w b, 
  match read_loop c replies left w b with
  | Got r => exists n, n <= w /\ r = b ++ firstn n left /\ (~ In Fails replies -> r = b ++ firstn w left)
  | Reading r => List.length replies <= List.length left /\ exists n, n <= w /\ r = b ++ firstn n left
  end.
Proof.
  induction replies as [|[|k] r IH]; intros left w b.
  - cbn. split; [lia|]. exists 0. split; [lia|]. cbn. now rewrite app_nil_r.
  - cbn. exists 0. split; [lia|]. split; [cbn; now rewrite app_nil_r|]. intros H. exfalso. apply H. now left.
  - rewrite read_step by exact C. cbv zeta. remember (Nat.min (Nat.min (S k) (Nat.min c w)) (List.length left)) as now eqn:Q.
    destruct (Nat.eqb_spec now 0) as [Z|Z].
    + exists 0. split; [lia|]. split; [cbn; now rewrite app_nil_r|]. intros _. assert (w = 0 \/ left = []) as [-> | ->] by (destruct left as [|y l]; [now right|left; cbn [List.length] in Q; destruct w, c; lia]); [cbn|rewrite firstn_nil]; now rewrite app_nil_r.
    + destruct (Nat.leb_spec w now) as [W|W].
      * exists now. split; [lia|]. split; [reflexivity|]. intros _. now replace w with now by lia.
      * specialize (IH (skipn now left) (w - now) (b ++ firstn now left)). destruct (read_loop c r _ _ _) as [x|x].
        -- destruct IH as (n&A&B&D). exists (now + n). split; [lia|]. split; [now rewrite firstn_add, app_assoc|].
           intros H. rewrite D by (intros I'; apply H; now right). replace w with (now + (w - now)) at 2 by lia. now rewrite firstn_add, app_assoc.
        -- destruct IH as (L&n&A&B). rewrite skipn_length in L. cbn [List.length]. split; [lia|]. exists (now + n). split; [lia|]. now rewrite firstn_add, app_assoc.
Qed.
Theorem C104_read : forall chunk replies content want r, 0 < chunk -> read chunk replies content want = Got r ->
  (exists n, n <= want /\ r = firstn n content) /\ (~ In Fails replies -> r = firstn want content).
Proof. intros c a f w r C E. unfold read in E. pose proof (read_prefix c C a f w []) as P. rewrite E in P. destruct P as (n&A&B&D). split; [now exists n|exact D]. Qed.
(** It always returns, after at most one call more than there are bytes. *)
Theorem C104_read_ends : forall chunk replies content want, 0 < chunk -> List.length content < List.length replies -> exists r, read chunk replies content want = Got r.
Proof. intros c a f w C L. unfold read. pose proof (read_prefix c C a f w []) as P. destruct (read_loop c a f w []) as [r|r]; [now exists r|]. destruct P as (P&_). lia. Qed.
Print Assumptions C104_read.
Print Assumptions C104_read_ends.

(** ReadIntoString says true exactly if the string is the whole file. *)
Theorem C104_read_all : forall chunk replies content ok s, 0 < chunk -> read_all chunk replies content = Some (ok, s) -> (ok = true <-> s = content) /\ (~ In Fails replies -> ok = true).
Proof.
  intros c a f ok s C E. unfold read_all in E. destruct (read c a f (List.length f)) as [r|r] eqn:R; [|discriminate]. injection E as E <-.
  destruct (C104_read _ _ _ _ _ C R) as ((n&N&Q)&D). split.
  - rewrite <- E, Nat.eqb_eq. split; [|now intros ->]. intros L. rewrite Q in *. rewrite firstn_length in L. apply firstn_all2. lia.
  - intros H. rewrite <- E, (D H), firstn_all. apply Nat.eqb_refl.
Qed.
Print Assumptions C104_read_all.

(** TextFile: it is built without failure exactly if the file was opened and holds the text; failure comes of an error of the system. *)
Theorem C104_built : forall windows chunk opened answers old lines ok file, build windows chunk opened answers old lines = Some (ok, file) ->
  (ok = true -> file = text windows lines) /\ (ok = false -> opened = false \/ In Error answers).
Proof.
  intros w c o a old l ok file E. unfold build in E. destruct o; [|injection E as <- <-; split; [discriminate|auto]].
  destruct (write c a [] (text w l)) as [n f|f] eqn:W; [|discriminate]. injection E as E <-. destruct (C104_written _ _ _ _ _ _ W) as (A&_&B&D). split.
  - intros ->. apply Nat.eqb_eq in E. now rewrite (D E).
  - intros ->. apply Nat.eqb_neq in E. right. apply B. lia.
Qed.
Print Assumptions C104_built.

(** And the lines can be read back from the text: all of them, and their order. *)
Definition LF : ascii := ascii_of_nat 10.
Fixpoint split (b : bytes) : list bytes :=
  match b with
  | [] => []
  | x :: r => if ascii_dec x LF then [] :: split r else match split r with [] => [[x]] | s :: t => (x :: s) :: t end
  end.
Definition unreturn (windows : bool) (s : bytes) : bytes := if windows then removelast s else s.
Definition one_line (s : bytes) : Prop := ~ In LF s.
Lemma split_line s r : one_line s -> split (s ++ LF :: r) = s :: split r.
Proof.
  unfold one_line. induction s as [|x s IH]; intros H; cbn [app split].
  - destruct (ascii_dec LF LF); [reflexivity|contradiction].
  - destruct (ascii_dec x LF) as [->|Ne]; [exfalso; apply H; now left|]. rewrite IH; [reflexivity|]. intros I'. apply H. now right.
Qed.
Theorem C104_lines : forall windows lines, Forall one_line lines -> map (unreturn windows) (split (text windows lines)) = lines.
Proof.
  intros w lines. induction lines as [|s r IH]; intros F; [reflexivity|]. inversion F as [|? ? A B]; subst. cbn [text]. destruct w; cbn [newline app].
  - replace (s ++ ascii_of_nat 13 :: ascii_of_nat 10 :: text true r) with ((s ++ [ascii_of_nat 13]) ++ LF :: text true r) by (now rewrite <- app_assoc).
    rewrite split_line; [cbn [map unreturn]; rewrite removelast_last, IH; auto|]. intros I'. apply in_app_or in I' as [I'|[I'|[]]]; [now apply A|discriminate].
  - change (ascii_of_nat 10) with LF. rewrite split_line by exact A. cbn [map unreturn]. now rewrite IH.
Qed.
Print Assumptions C104_lines.

(** A text of two lines is written in three calls, and read in four. *)
Local Open Scope string_scope.
Local Notation B s := (list_ascii_of_string s).
Example C104_case :
  build false 4 true [Takes 9; Takes 2; Takes 9] (B "old") [B "ab"; B "cde"] = Some (true, text false [B "ab"; B "cde"]) /\
  build false 4 true [Takes 9; Error] (B "old") [B "ab"; B "cde"] = Some (false, firstn 4 (text false [B "ab"; B "cde"])) /\
  build false 4 false [] (B "old") [B "ab"] = Some (false, B "old") /\
  read_all 3 [Gives 7; Gives 0; Gives 1; Gives 0] (B "abcdefg") = Some (true, B "abcdefg") /\
  read_all 3 [Gives 7; Fails] (B "abcdefg") = Some (false, B "abc").
Proof. vm_compute. repeat split. Qed.

(** Documents with directives. *)
From Coq Require Import String List Arith NArith ZArith Bool Ascii Lia.
From Verif Require Import M_Path M_Cond M_Tok S_Tok S_Doc P_Tok P_Tok2 P_Tok3 P_Tok4 P_Tok5.
Import ListNotations.
Open Scope char_scope.
Open Scope nat_scope.

Ltac names := repeat match goal with |- context[seqb (L ?a) (L ?b)] => let v := eval vm_compute in (seqb (L a) (L b)) in change (seqb (L a) (L b)) with v end; cbn iota.

(** * The search for the end of a part *)
Lemma to_endif_more f allow : forall f' k s e y, to_endif f allow k s e = y -> y <> NoFuel -> f <= f' -> to_endif f' allow k s e = y.
Proof.
  induction f as [|f IH]; intros f' k s e y H N Le; [cbn in H; congruence|]. destruct f' as [|f']; [lia|]. assert (Lf : f <= f') by lia. cbn [to_endif] in *.
  destruct (List.length (skip_blank s) =? e); [exact H|]. destruct (peek (skip_blank s) =? "#")%char; [|eapply IH; eassumption].
  destruct (directive_name (skip_blank (tl (skip_blank s)))) as [[n r]|]; [|exact H].
  destruct (seqb n (L "endif")); [destruct (k =? 1); [exact H|eapply IH; eassumption]|].
  destruct (seqb n (L "if")); [eapply IH; eassumption|].
  destruct ((k =? 1) && seqb n (L "elif")); [exact H|]. destruct ((k =? 1) && seqb n (L "else")); [exact H|]. eapply IH; eassumption.
Qed.
Definition reach (allow : bool) (k : nat) (s : str) (e : nat) (y : res (str * nat * kind)) : Prop := y <> NoFuel /\ to_endif (S (List.length s)) allow k s e = y.
Lemma reach_step allow k (s : str) e s' y : reach allow k s' e y -> List.length s' < List.length s -> to_endif (List.length s) allow k s' e = y.
Proof. intros (N & H) Lt. eapply to_endif_more; [exact H|exact N|lia]. Qed.

Lemma blank_iff c : blank c = true <-> c = " " \/ c = TAB.
Proof. unfold blank. rewrite orb_true_iff, !Ascii.eqb_eq. tauto. Qed.
Lemma blank_text_blanks s : blank_text s <-> blanks s.
Proof. unfold blank_text, blanks. rewrite !Forall_forall. split; intros H c I; apply blank_iff; auto. Qed.
Lemma skip_blanks u s : blanks u -> (match s with [] => True | c :: _ => blank c = false end) -> skip_blank (u ++ s) = s.
Proof. intros B N. unfold skip_blank. rewrite span_app; auto. Qed.
Lemma blanks_no_lf u : blanks u -> ~ In LF u.
Proof. intros B I. unfold blanks in B. rewrite Forall_forall in B. specialize (B _ I). discriminate. Qed.

Lemma reach_line allow k b s e y : ~ In LF b -> (forall u r, b ++ LF :: s = u ++ "#" :: r -> ~ blanks u) -> e <= List.length s -> reach allow k s e y -> reach allow k (b ++ LF :: s) e y.
Proof.
  intros Nb Np Le R. split; [apply R|]. cbn [to_endif]. destruct (skip_blank_split (b ++ LF :: s)) as (u & E & B). set (s1 := skip_blank (b ++ LF :: s)) in *.
  assert (E1 : exists b', s1 = b' ++ LF :: s /\ ~ In LF b').
  { destruct (app_split u s1 b (LF :: s) (eq_sym E)) as (m & Eb & Es).
    - destruct (le_lt_dec (List.length (LF :: s)) (List.length s1)) as [Q|Q]; [exact Q|]. exfalso.
      destruct (app_split b (LF :: s) u s1 E ltac:(lia)) as (m & Eu & Es). destruct m as [|c m].
      + cbn in Es. rewrite <- Es in Q. lia.
      + cbn in Es. injection Es as <- _. apply (blanks_no_lf _ B). rewrite Eu. apply in_or_app. right. now left.
    - exists m. split; [exact Es|]. intro I. apply Nb. rewrite Eb. apply in_or_app. now right. }
  destruct E1 as (b' & E1 & Nb'). rewrite E1. destruct (Nat.eqb_spec (List.length (b' ++ LF :: s)) e) as [Q|_]; [rewrite app_length in Q; cbn in Q; lia|].
  destruct (Ascii.eqb_spec (peek (b' ++ LF :: s)) "#") as [Q|Q].
  - exfalso. destruct b' as [|c b']; cbn in Q; [discriminate|]. subst c. rewrite E1 in E. cbn [app] in E. exact (Np _ _ E B).
  - rewrite next_line_lf by assumption. apply (reach_step _ _ _ _ _ _ R). rewrite app_length. cbn. lia.
Qed.
Lemma first_line s : at_line_start s -> s = [] \/ exists b s', s = b ++ LF :: s' /\ ~ In LF b /\ at_line_start s'.
Proof.
  intros [->|(t & ->)]; [now left|]. right. induction t as [|c t IH]; [exists [], []; repeat split; [intros []|now left]|].
  destruct (ascii_dec c LF) as [->|N].
  - exists [], (t ++ [LF]). repeat split; [intros []|]. right. now exists t.
  - destruct IH as (b & s' & E & Nb & A). exists (c :: b), s'. cbn [app]. rewrite E. repeat split; [|exact A]. intros [Q|Q]; congruence || tauto.
Qed.
Lemma reach_plain allow k e x y : e <= List.length x -> reach allow k x e y -> forall n (s : str), List.length s <= n -> plain_text s -> reach allow k (s ++ x) e y.
Proof.
  intros Le R. induction n as [|n IH]; intros s Ln (A & P).
  - destruct s; [exact R|cbn in Ln; lia].
  - destruct (first_line s A) as [->|(b & s' & -> & Nb & A')]; [exact R|]. rewrite <- app_assoc. cbn [app].
    apply reach_line; [exact Nb| |rewrite app_length; lia|].
    + intros u r E B. assert (E2 : exists r', b ++ LF :: s' = u ++ "#" :: r').
      { replace (b ++ LF :: s' ++ x) with ((b ++ LF :: s') ++ x) in E by (rewrite <- app_assoc; reflexivity).
        destruct (le_lt_dec (List.length x) (List.length ("#" :: r))) as [Q|Q].
        - destruct (app_split u ("#" :: r) (b ++ LF :: s') x (eq_sym E) Q) as (m & Em & Er). destruct m as [|c m].
          + exfalso. rewrite app_nil_r in Em. subst u. apply (blanks_no_lf _ B). apply in_or_app. right. now left.
          + cbn in Er. injection Er as <- _. now exists m.
        - exfalso. destruct (app_split (b ++ LF :: s') x u ("#" :: r) E ltac:(lia)) as (m & Em & _). apply (blanks_no_lf _ B). rewrite Em. apply in_or_app. left. apply in_or_app. right. now left. }
      destruct E2 as (r' & E2). apply (P [] u r'); [exact E2|now left|]. now apply blank_text_blanks.
    + apply IH; [rewrite app_length in Ln; cbn in Ln; lia|]. split; [exact A'|]. intros a c r E Aa. apply (P (b ++ LF :: a) c r); [rewrite E, <- app_assoc; reflexivity|].
      right. destruct Aa as [->|(a' & ->)]; [now exists b|]. exists (b ++ LF :: a'). now rewrite <- app_assoc.
Qed.

(** A line with a directive. *)
Definition word_name (n : str) : Prop := n <> [] /\ Forall (from_to "a" "z") n.
Lemma lower_iff c : lower_ c = true <-> from_to "a" "z" c. Proof. apply within_iff. Qed.
Lemma directive_of gap n r : blanks gap -> word_name n -> not_next name_char r -> directive_name (skip_blank (gap ++ n ++ r)) = Some (n, r).
Proof.
  intros B (N & F) X. destruct n as [|c n]; [congruence|]. assert (Hc : lower_ c = true) by (inversion F; now apply lower_iff).
  rewrite skip_blanks; [|exact B|cbn; apply not_true; intro Q; apply blank_iff in Q as [->| ->]; discriminate].
  unfold directive_name. cbn [app peek]. rewrite Hc. f_equal. change (c :: n ++ r) with ((c :: n) ++ r). apply span_app.
  - eapply Forall_impl; [|exact F]. intros a Ha. apply lower_iff in Ha. now rewrite Ha.
  - destruct r as [|d r]; [exact I|]. cbn in X. apply not_true. intro Q. apply X. apply id_char_iff. unfold id_char. apply orb_true_iff in Q as [Q|Q]; rewrite Q; now rewrite ?orb_true_r.
Qed.
Lemma lf_not_name x : not_next name_char (LF :: x).
Proof. cbn. intro Q. apply id_char_iff in Q. discriminate. Qed.
Lemma rest_next h x : head_ok h -> not_next name_char (rest h ++ LF :: x).
Proof. intros (_ & _ & N & _). destruct (rest h) as [|c r]; [apply lf_not_name|exact N]. Qed.
Lemma line_text h n x : line_of h n ++ x = indent h ++ "#" :: gap h ++ n ++ rest h ++ LF :: x.
Proof. unfold line_of. rewrite <- !app_assoc. cbn [app]. rewrite <- !app_assoc. reflexivity. Qed.
Lemma rest_line e h x : head_ok h -> e <= List.length x -> next_line e (rest h ++ LF :: x) = x.
Proof. intros (_ & _ & _ & N) Le. now apply next_line_lf. Qed.

(** One step of the search at such a line. *)
Definition after_name (f : nat) (allow : bool) (k : nat) (h : head) (n : str) (x : str) (e : nat) : res (str * nat * kind) :=
  if seqb n (L "endif") then if k =? 1 then Done (x, List.length ("#" :: gap h ++ n ++ rest h ++ LF :: x), KEndif) else to_endif f allow (k - 1) x e
  else if seqb n (L "if") then to_endif f allow (S k) x e
  else if (k =? 1) && seqb n (L "elif") then if allow then Done (rest h ++ LF :: x, List.length ("#" :: gap h ++ n ++ rest h ++ LF :: x), KElif) else Fail
  else if (k =? 1) && seqb n (L "else") then if allow then Done (rest h ++ LF :: x, List.length ("#" :: gap h ++ n ++ rest h ++ LF :: x), KElse) else Fail
  else to_endif f allow k x e.
Lemma to_endif_line f allow k h n x e : head_ok h -> word_name n -> e <= List.length x ->
  to_endif (S f) allow k (line_of h n ++ x) e = after_name f allow k h n x e.
Proof.
  intros Hh Wn Le. rewrite line_text. cbn [to_endif]. pose proof Hh as (Bi & Bg & Nn & Nl). apply blank_text_blanks in Bi. apply blank_text_blanks in Bg.
  rewrite (skip_blanks (indent h)); [|exact Bi|reflexivity].
  destruct (Nat.eqb_spec (List.length ("#" :: gap h ++ n ++ rest h ++ LF :: x)) e) as [Q|_]; [cbn in Q; rewrite !app_length in Q; cbn in Q; lia|].
  cbn [peek tl]. change ("#" =? "#")%char with true. cbn iota.
  rewrite (directive_of (gap h) n (rest h ++ LF :: x)); [|exact Bg|exact Wn|now apply rest_next]. unfold after_name. rewrite (rest_line e h x Hh Le). reflexivity.
Qed.
Lemma line_length h n x : List.length x < List.length (line_of h n ++ x).
Proof. rewrite line_text, app_length. cbn. rewrite !app_length. cbn. lia. Qed.

Lemma reach_at allow k h n x e k' y : head_ok h -> word_name n -> e <= List.length x -> (forall f, after_name f allow k h n x e = to_endif f allow k' x e) ->
  reach allow k' x e y -> reach allow k (line_of h n ++ x) e y.
Proof.
  intros H Wn Le A R. split; [apply R|]. rewrite to_endif_line by assumption. rewrite A. apply (reach_step _ _ _ _ _ _ R). apply line_length.
Qed.
Ltac word := split; [discriminate|repeat constructor; cbn; lia].
Lemma w_if : word_name (L "if"). Proof. word. Qed.
Lemma w_elif : word_name (L "elif"). Proof. word. Qed.
Lemma w_else : word_name (L "else"). Proof. word. Qed.
Lemma w_endif : word_name (L "endif"). Proof. word. Qed.

Scheme doc_tail_ind := Induction for doc Sort Prop with tail_doc_ind := Induction for tail Sort Prop.
Combined Scheme doc_mut from doc_tail_ind, tail_doc_ind.

Lemma reach_text : (forall d, shaped d -> forall allow k x e y, 1 <= k -> e <= List.length x -> reach allow k x e y -> reach allow k (text d ++ x) e y) /\
  (forall t, tail_shaped t -> forall allow k x e y, 1 <= k -> e <= List.length x -> reach allow k x e y -> reach allow (S k) (tail_text t ++ x) e y).
Proof.
  apply doc_mut.
  - intros _ allow k x e y _ _ R. exact R.
  - intros s d IH (P & Sh) allow k x e y Lk Le R. cbn [text]. rewrite <- app_assoc. eapply reach_plain; [rewrite app_length; lia| |reflexivity|exact P]. now apply IH.
  - intros h n d IH (H & (Nn & Fn & Nr) & Sh) allow k x e y Lk Le R. cbn [text]. rewrite <- app_assoc.
    apply reach_at with (k' := k); [exact H|now split|rewrite app_length; lia| |now apply IH].
    intro f. unfold after_name. cbn [In] in Nr.
    destruct (seqb n (L "endif")) eqn:Q1; [apply seqb_eq in Q1; subst; tauto|]. destruct (seqb n (L "if")) eqn:Q2; [apply seqb_eq in Q2; subst; tauto|].
    destruct (seqb n (L "elif")) eqn:Q3; [apply seqb_eq in Q3; subst; tauto|]. destruct (seqb n (L "else")) eqn:Q4; [apply seqb_eq in Q4; subst; tauto|].
    now rewrite !andb_false_r.
  - intros h c b IHb t IHt d IH (H & Sb & St & Sd) allow k x e y Lk Le R. cbn [text]. rewrite <- !app_assoc.
    apply reach_at with (k' := S k); [exact H|apply w_if|rewrite !app_length; lia|intro f; unfold after_name; names; reflexivity|].
    apply IHb; [exact Sb|lia|rewrite !app_length; lia|]. apply IHt; [exact St|exact Lk|rewrite app_length; lia|]. now apply IH.
  - intros h H allow k x e y Lk Le R. cbn [tail_text]. apply reach_at with (k' := k); [exact H|apply w_endif|exact Le| |exact R].
    intro f. unfold after_name. names. destruct k; [lia|]. cbn [Nat.eqb]. now rewrite Nat.sub_succ, Nat.sub_0_r.
  - intros h b IHb h2 (H & P & Sb & H2) allow k x e y Lk Le R. cbn [tail_text]. rewrite <- !app_assoc.
    apply reach_at with (k' := S k); [exact H|apply w_else|rewrite !app_length; lia| |].
    { intro f. unfold after_name. names. destruct k; [lia|]. reflexivity. }
    apply IHb; [exact Sb|lia|rewrite !app_length; lia|].
    apply reach_at with (k' := k); [exact H2|apply w_endif|exact Le| |exact R].
    intro f. unfold after_name. names. destruct k; [lia|]. cbn [Nat.eqb]. now rewrite Nat.sub_succ, Nat.sub_0_r.
  - intros h c b IHb t IHt (H & Sb & St) allow k x e y Lk Le R. cbn [tail_text]. rewrite <- !app_assoc.
    apply reach_at with (k' := S k); [exact H|apply w_elif|rewrite !app_length; lia| |].
    { intro f. unfold after_name. names. destruct k; [lia|]. reflexivity. }
    apply IHb; [exact Sb|lia|rewrite !app_length; lia|]. now apply IHt.
Qed.

Definition tail_head (t : tail) : head := match t with Endif h => h | Else h _ _ => h | Elif h _ _ _ => h end.
Definition tail_kind (t : tail) : kind := match t with Endif _ => KEndif | Else _ _ _ => KElse | Elif _ _ _ _ => KElif end.
Definition tail_rest (t : tail) (x : str) : str :=
  match t with
  | Endif _ => x
  | Else h b h2 => rest h ++ LF :: text b ++ line_of h2 (L "endif") ++ x
  | Elif h _ b t => rest h ++ LF :: text b ++ tail_text t ++ x
  end.
(** The part ends in front of a '#' that only blanks precede. *)
Definition marks (t : tail) (x : str) (be : nat) : Prop := exists z, tail_text t ++ x = indent (tail_head t) ++ z /\ hd " " z = "#" /\ be = List.length z.
Lemma reach_tail t x e : tail_shaped t -> e <= List.length x -> exists be, marks t x be /\ reach true 1 (tail_text t ++ x) e (Done (tail_rest t x, be, tail_kind t)).
Proof.
  intros Sh Le. destruct t as [h|h b h2|h c b t]; cbn [tail_text].
  - eexists. split; [|split; [discriminate|rewrite to_endif_line; [unfold after_name; names; reflexivity|exact Sh|apply w_endif|exact Le]]].
    eexists. split; [|split; [|reflexivity]]; [apply line_text|reflexivity].
  - destruct Sh as (H & _). rewrite <- !app_assoc. eexists. split; [|split; [discriminate|rewrite to_endif_line; [unfold after_name; names; reflexivity|exact H|apply w_else|rewrite !app_length; lia]]].
    eexists. split; [|split; [|reflexivity]]; [cbn [tail_text]; rewrite <- !app_assoc; apply line_text|reflexivity].
  - destruct Sh as (H & _). rewrite <- !app_assoc. eexists. split; [|split; [discriminate|rewrite to_endif_line; [unfold after_name; names; reflexivity|exact H|apply w_elif|rewrite !app_length; lia]]].
    eexists. split; [|split; [|reflexivity]]; [cbn [tail_text]; rewrite <- !app_assoc; apply line_text|reflexivity].
Qed.
Lemma find_part b t x e : shaped b -> tail_shaped t -> e <= List.length x -> exists be, marks t x be /\ find_endif true (text b ++ tail_text t ++ x) e = Done (tail_rest t x, be, tail_kind t).
Proof.
  intros Sb St Le. destruct (reach_tail t x e St Le) as (be & M & R). exists be. split; [exact M|].
  apply (proj1 reach_text b Sb) in R; [|lia|rewrite app_length; lia]. apply R.
Qed.
Lemma find_last s b h2 x e : plain_text s -> shaped b -> head_ok h2 -> e <= List.length x ->
  exists be, marks (Endif h2) x be /\ find_endif false (s ++ text b ++ line_of h2 (L "endif") ++ x) e = Done (x, be, KEndif).
Proof.
  intros P Sb H2 Le. eexists. split; [eexists; split; [apply line_text|split; reflexivity]|].
  assert (R : reach false 1 (line_of h2 (L "endif") ++ x) e (Done (x, List.length ("#" :: gap h2 ++ L "endif" ++ rest h2 ++ LF :: x), KEndif))).
  { split; [discriminate|]. rewrite to_endif_line; [unfold after_name; names; reflexivity|exact H2|apply w_endif|exact Le]. }
  apply (proj1 reach_text b Sb) in R; [|lia|rewrite app_length; lia]. eapply reach_plain in R; [|rewrite !app_length; lia|reflexivity|exact P]. apply R.
Qed.

(** * Which part is taken *)
Definition is_block (t : tail) (x : str) (o : option doc) (block : option (str * nat)) : Prop :=
  match o, block with
  | None, None => True
  | Some b, Some (s, be) => exists y z, s = text b ++ y ++ z /\ blanks y /\ hd " " z = "#" /\ be = List.length z
  | _, _ => False
  end.
Lemma tail_rest_length t x : tail_shaped t -> List.length (tail_rest t x) <= List.length (tail_text t ++ x).
Proof.
  intro Sh. destruct t; cbn [tail_rest tail_text]; rewrite <- ?app_assoc.
  - apply Nat.lt_le_incl, line_length.
  - unfold line_of. repeat (rewrite !app_length; cbn [List.length]). lia.
  - unfold line_of. repeat (rewrite !app_length; cbn [List.length]). lia.
Qed.
Lemma marks_block b t x be : tail_shaped t -> marks t x be -> exists y z, text b ++ tail_text t ++ x = text b ++ y ++ z /\ blanks y /\ hd " " z = "#" /\ be = List.length z.
Proof.
  intros Sh (z & E & Hz & ->). exists (indent (tail_head t)), z. rewrite E. repeat split; [|exact Hz]. destruct t; cbn in Sh; unfold head_ok in Sh; cbn [tail_head]; now apply blank_text_blanks.
Qed.
Lemma elif_line h x ts : means (rest h ++ [LF]) ts [] -> line (List.length (rest h ++ LF :: x)) (List.length x) (rest h ++ LF :: x) = Done ts.
Proof.
  intro M. replace (rest h ++ LF :: x) with ((rest h ++ [LF]) ++ x) by now rewrite <- app_assoc. apply means_line; [exact M|]. right. now exists (rest h).
Qed.

Section Branches.
Variables (w : world) (file : str).
Hypothesis Hw : sound_world w.
Hypothesis Hf : In "/" file.

Lemma branches_after : forall t, tail_shaped t -> forall f x e block st, agrees w st -> e <= List.length x -> tail_asks t -> List.length (tail_rest t x) < f ->
  branches f w file e (tail_kind t) true block (tail_rest t x) st = Done (block, x, st).
Proof.
  induction t as [h|h b h2|h c b t IH]; intros Sh f x e block st A Le As Lf; (destruct f as [|f]; [lia|]); cbn [tail_kind tail_rest branches].
  - reflexivity.
  - destruct Sh as (H & P & Sb & H2). destruct (find_last (rest h ++ [LF]) b h2 x e P Sb H2 Le) as (be & M & F). rewrite <- app_assoc in F. cbn [app] in F. rewrite F. reflexivity.
  - destruct Sh as (H & Sb & St). destruct As as ((Ma & Ok) & As).
    rewrite (rest_line e h) by (assumption || (rewrite !app_length; lia)). rewrite (elif_line h _ _ Ma). cbn [bind negb].
    destruct (if_expr_value w file Hw Hf false st c A Ok) as (v & Ev & Vt). rewrite Ev. cbn [bind].
    destruct (find_part b t x e Sb St Le) as (be & M & F). rewrite F. cbn [bind orb andb].
    apply IH; auto. cbn [tail_rest] in Lf. rewrite !app_length in Lf. cbn [List.length] in Lf. rewrite !app_length in Lf. pose proof (tail_rest_length t x St) as Q. rewrite app_length in Q. lia.
Qed.
Lemma picks_agrees st t o st' : picks w file st t o st' -> agrees w st -> agrees w st'.
Proof. induction 1; intro A; auto; [now apply note_all_agrees|]. apply IHpicks. now apply note_all_agrees. Qed.
Lemma picks_shaped st t b st' : picks w file st t (Some b) st' -> tail_shaped t -> shaped b.
Proof.
  intro P. remember (Some b) as o eqn:E. induction P; intro Sh; try discriminate; cbn in Sh.
  - injection E as <-. cbn. tauto.
  - injection E as <-. tauto.
  - apply IHP; tauto.
Qed.
Lemma branches_picks : forall t, tail_shaped t -> forall f x e st o st', agrees w st -> e <= List.length x -> picks w file st t o st' -> List.length (tail_rest t x) < f ->
  exists block, branches f w file e (tail_kind t) false None (tail_rest t x) st = Done (block, x, st') /\ is_block t x o block.
Proof.
  induction t as [h|h b h2|h c b t IH]; intros Sh f x e st o st' A Le Pk Lf; (destruct f as [|f]; [lia|]); cbn [tail_kind tail_rest branches].
  - inversion Pk; subst. exists None. split; [reflexivity|exact I].
  - inversion Pk; subst. destruct Sh as (H & P & Sb & H2). destruct (find_last (rest h ++ [LF]) b h2 x e P Sb H2 Le) as (be & M & F). rewrite <- app_assoc in F. cbn [app] in F. rewrite F. cbn [bind].
    eexists. split; [reflexivity|]. cbn [is_block text]. destruct (marks_block (Text (rest h ++ [LF]) b) (Endif h2) x be H2 M) as (y & z & E & Z). exists y, z. split; [|exact Z].
    cbn [text tail_text] in E. rewrite <- E. rewrite <- !app_assoc. reflexivity.
  - destruct Sh as (H & Sb & St). assert (As : asks h c) by now inversion Pk. destruct As as (Ma & Ok).
    rewrite (rest_line e h) by (assumption || (rewrite !app_length; lia)). rewrite (elif_line h _ _ Ma). cbn [bind negb].
    destruct (if_expr_value w file Hw Hf true st c A Ok) as (v & Ev & Vt). rewrite Ev. cbn [bind].
    destruct (find_part b t x e Sb St Le) as (be & M & F). rewrite F. cbn [bind orb].
    assert (Lr : List.length (tail_rest t x) < f).
    { cbn [tail_rest] in Lf. rewrite !app_length in Lf. cbn [List.length] in Lf. rewrite !app_length in Lf. pose proof (tail_rest_length t x St) as Q. rewrite app_length in Q. lia. }
    inversion Pk; subst.
    + assert (v = true) by (apply Vt; auto). subst v. cbn [andb].
      eexists. split; [apply branches_after; auto; now apply note_all_agrees|]. cbn [is_block]. now apply (marks_block b t x be).
    + assert (v = false) by (apply not_true; intro Q; apply Vt in Q; tauto). subst v. cbn [andb].
      destruct (IH St f x e (note_cond w file st c) o st') as (block & Eb & Ib); auto; [now apply note_all_agrees|]. exists block. split; [exact Eb|exact Ib].
Qed.
End Branches.

(** Proofs about the message filter. *)
From Coq Require Import List Arith Bool Ascii String NArith Lia.
From Verif Require Import M_Path M_Names M_Msg S_Msg.
Import ListNotations.

Notation sp := (" "%char).
Notation col := (":"%char).

Lemma lower_space c : lower_char c = sp -> c = sp.
Proof. destruct c as [[] [] [] [] [] [] [] []]; vm_compute; congruence. Qed.
Lemma lower_letter c : is_letter (lower_char c) = is_letter c.
Proof. destruct c as [[] [] [] [] [] [] [] []]; reflexivity. Qed.
Lemma letter_alnum c : is_letter c = true -> is_alnum c = true.
Proof. intros H. unfold is_alnum. now rewrite H. Qed.
Lemma ws_not_alnum c : is_ws c = true -> is_alnum c = false.
Proof. destruct c as [[] [] [] [] [] [] [] []]; vm_compute; congruence. Qed.
Lemma ws_not_letter c : is_ws c = true -> is_letter c = false.
Proof. destruct c as [[] [] [] [] [] [] [] []]; vm_compute; congruence. Qed.
Lemma alnum_not_ws c : is_alnum c = true -> is_ws c = false.
Proof. destruct c as [[] [] [] [] [] [] [] []]; vm_compute; congruence. Qed.

Definition head_not (f : ascii -> bool) (l : str) : Prop := forall c r, l = c :: r -> f c = false.
Lemma head_not_nil f : head_not f []. Proof. intros c r H. discriminate. Qed.
Lemma head_not_cons f c r : f c = false -> head_not f (c :: r). Proof. intros H c' r' E. now inversion E; subst. Qed.
Lemma split_unique f a : forall b r s, all f a -> all f b -> head_not f r -> head_not f s -> a ++ r = b ++ s -> a = b /\ r = s.
Proof.
  induction a as [|x a IH]; intros [|y b] r s A B R S E; cbn in E.
  - auto.
  - exfalso. inversion B; subst. rewrite (R y (b ++ s) eq_refl) in *. discriminate.
  - exfalso. inversion A; subst. rewrite (S x (a ++ r) eq_refl) in *. discriminate.
  - inversion A; subst. inversion B; subst. inversion E; subst. apply IH in H5; auto. destruct H5; subst; auto.
Qed.
Lemma app_split {A} (p q x y : list A) : p ++ q = x ++ y ->
  (exists p', p = x ++ p' /\ y = p' ++ q) \/ (exists x1 x2, x = x1 ++ x2 /\ p = x1 /\ x2 <> [] /\ q = x2 ++ y).
Proof.
  revert x. induction p as [|a p IH]; intros x E; cbn in E.
  - destruct x as [|b x]; [left; exists []; auto|right; exists [], (b :: x)]. subst. repeat split; auto. discriminate.
  - destruct x as [|b x]; cbn in E.
    + left. exists (a :: p). auto.
    + inversion E; subst. apply IH in H1. destruct H1 as [(p' & -> & ->)|(x1 & x2 & -> & -> & N & ->)].
      * left. exists p'. auto.
      * right. exists (b :: x1), x2. auto.
Qed.

Lemma span_ok f l : forall p q, span f l = (p, q) -> l = p ++ q /\ all f p /\ head_not f q.
Proof.
  induction l as [|a r IH]; intros p q H; cbn in H.
  - inversion H; subst. repeat split; [constructor|apply head_not_nil].
  - destruct (f a) eqn:F.
    + destruct (span f r) as [p' q'] eqn:E. inversion H; subst. destruct (IH p' q eq_refl) as (-> & A & N). repeat split; auto. constructor; auto.
    + inversion H; subst. repeat split; [constructor|now apply head_not_cons].
Qed.
Lemma begins_app tok : forall u v v', List.length tok <= List.length u -> begins_i tok (u ++ v) = begins_i tok (u ++ v').
Proof. induction tok as [|a t IH]; intros [|b u] v v' H; cbn in *; auto; [lia|]. f_equal. apply IH. lia. Qed.
Lemma begins_word w t q : word w t -> begins_i (L w ++ [sp]) (t ++ sp :: q) = true.
Proof.
  unfold word. intros <-. induction t as [|b t IH]; [reflexivity|]. cbn [lower map app begins_i] in *. fold (lower t).
  assert (E : lower_char (lower_char b) = lower_char b) by (destruct b as [[] [] [] [] [] [] [] []]; reflexivity).
  rewrite E, Ascii.eqb_refl. exact IH.
Qed.
Lemma begins_word_inv x : forall l, begins_i (x ++ [sp]) l = true -> lower x = x -> exists t q, l = t ++ sp :: q /\ lower t = x.
Proof.
  induction x as [|a x IH]; intros [|b l] H LX; cbn [app begins_i] in H; try discriminate.
  - apply andb_prop in H. destruct H as (H & _). apply Ascii.eqb_eq in H. symmetry in H. change (lower_char sp) with sp in H. apply lower_space in H. subst b.
    exists [], l. auto.
  - apply andb_prop in H. destruct H as (H1 & H2). apply Ascii.eqb_eq in H1. cbn in LX. assert (E1 : lower_char a = a) by congruence. assert (E2 : lower x = x) by (unfold lower; congruence).
    destruct (IH l H2 E2) as (t & q & -> & E). exists (b :: t), q. split; auto. cbn [lower map]. fold (lower t). rewrite E. congruence.
Qed.
Lemma find_some tok l : forall p q, find_i tok l = Some (p, q) -> l = p ++ q /\ begins_i tok q = true /\
  forall p1 q1, l = p1 ++ q1 -> List.length p1 < List.length p -> begins_i tok q1 = false.
Proof.
  induction l as [|a r IH]; intros p q H; cbn [find_i] in H.
  - destruct (begins_i tok []) eqn:B; [|discriminate]. inversion H; subst. repeat split; auto. cbn. intros; lia.
  - destruct (begins_i tok (a :: r)) eqn:B.
    + inversion H; subst. repeat split; auto. cbn. intros; lia.
    + destruct (find_i tok r) as [[p' q']|] eqn:F; [|discriminate]. inversion H; subst. destruct (IH p' q eq_refl) as (-> & B' & N). repeat split; auto.
      intros [|b p1] q1 E LT; cbn in *; [now subst|]. inversion E; subst. apply (N p1); auto. lia.
Qed.
Lemma find_none tok l : tok <> [] -> find_i tok l = None -> forall p1 q1, l = p1 ++ q1 -> begins_i tok q1 = false.
Proof.
  intros NE. induction l as [|a r IH]; intros H p1 q1 E; cbn [find_i] in H.
  - destruct p1; [cbn in E; subst|discriminate]. destruct tok; [congruence|reflexivity].
  - destruct (begins_i tok (a :: r)) eqn:B; [discriminate|]. destruct (find_i tok r) as [[? ?]|] eqn:F; [discriminate|].
    destruct p1 as [|b p1]; cbn in E; [now subst|]. inversion E; subst. apply (IH eq_refl p1); auto.
Qed.
Lemma find_none_suffix tok l p r : tok <> [] -> find_i tok l = None -> l = p ++ r -> find_i tok r = None.
Proof.
  intros NE H E. destruct (find_i tok r) as [[a b]|] eqn:F; auto. apply find_some in F. destruct F as (-> & B & _).
  rewrite app_assoc in E. rewrite (find_none tok l NE H _ _ E) in B. discriminate.
Qed.

Definition tokw (t : str) : Prop := word "error" t \/ word "warning" t.
Lemma word_letters w t : word w t -> all is_letter (L w) -> all is_letter t.
Proof.
  unfold word, all. intros E F. rewrite <- E in F. unfold lower in F. rewrite Forall_map in F. eapply Forall_impl; [|exact F]. intros c. cbn. now rewrite lower_letter.
Qed.
Lemma tokw_letters t : tokw t -> all is_letter t.
Proof. intros [H|H]; apply word_letters in H; auto; repeat constructor. Qed.
Lemma tokw_cons t : tokw t -> exists c r, t = c :: r /\ is_letter c = true.
Proof. intros H. pose proof (tokw_letters _ H) as A. destruct t as [|c r]; [destruct H; discriminate|]. inversion A; subst. eauto. Qed.
Lemma word_len w t : word w t -> List.length t = List.length (L w).
Proof. unfold word. intros <-. unfold lower. now rewrite map_length. Qed.

Lemma token_shape l pre tok : find_token l = Some (pre, tok) -> l = pre ++ tok /\ exists t q, tok = t ++ sp :: q /\ tokw t.
Proof.
  unfold find_token. destruct (find_i ERROR l) as [[p q]|] eqn:E.
  - intros H. inversion H; subst. apply find_some in E. destruct E as (-> & B & _). split; auto. apply (begins_word_inv (L "error")) in B; [|reflexivity].
    destruct B as (t & q & -> & W). exists t, q. split; auto. now left.
  - intros H. apply find_some in H. destruct H as (-> & B & _). split; auto. apply (begins_word_inv (L "warning")) in B; [|reflexivity].
    destruct B as (t & q & -> & W). exists t, q. split; auto. now right.
Qed.

(** One round of the loop. *)
Record round (l pre t b c d z : str) : Prop := {
  ro_l : l = pre ++ t ++ (sp :: b) ++ c ++ d ++ z;
  ro_t : tokw t; ro_b : all is_ws b; ro_c : all is_alnum c; ro_d : all is_ws d;
  ro_hd : head_not is_ws z; ro_h3 : head_not is_alnum (d ++ z); ro_h2 : head_not is_ws (c ++ d ++ z) }.
Definition fill_rest (z : str) : str * str := match z with (":"%char) :: r5 => ([sp], r5) | _ => ([], z) end.
Lemma fill_cases z : (exists r, z = col :: r /\ fill_rest z = ([sp], r)) \/ ((forall r, z <> col :: r) /\ fill_rest z = ([], z)).
Proof.
  destruct z as [|a r]; [right; split; [congruence|reflexivity]|].
  destruct (Ascii.eqb_spec a col) as [->|N]; [left; exists r; auto|right]. split; [congruence|].
  destruct a as [[] [] [] [] [] [] [] []]; try reflexivity. now elim N.
Qed.
Lemma loop_round f l pre tok : find_token l = Some (pre, tok) ->
  exists t b c d z, round l pre t b c d z /\ tok = t ++ (sp :: b) ++ c ++ d ++ z /\
    clean_loop (S f) l = match clean_loop f (snd (fill_rest z)) with
                         | Some o => Some (pre ++ t ++ (sp :: b) ++ c ++ d ++ fst (fill_rest z) ++ o) | None => None end.
Proof.
  intros H. destruct (token_shape _ _ _ H) as (-> & t & q & -> & W). cbn [clean_loop]. rewrite H.
  destruct (span is_letter (t ++ sp :: q)) as [a r1] eqn:S1. apply span_ok in S1. destruct S1 as (E1 & A1 & N1).
  destruct (split_unique is_letter t a (sp :: q) r1 (tokw_letters _ W) A1 ltac:(now apply head_not_cons) N1 E1) as (<- & <-).
  destruct (span is_ws (sp :: q)) as [b r2] eqn:S2. apply span_ok in S2. destruct S2 as (E2 & A2 & N2).
  destruct b as [|s0 b]; [cbn in E2; subst; exfalso; pose proof (N2 sp q eq_refl); discriminate|]. inversion E2; subst s0 q. clear E2 E1.
  destruct (span is_alnum r2) as [c r3] eqn:S3. apply span_ok in S3. destruct S3 as (-> & A3 & N3).
  destruct (span is_ws r3) as [d z] eqn:S4. apply span_ok in S4. destruct S4 as (-> & A4 & N4).
  inversion A2; subst. exists t, b, c, d, z. split; [constructor; auto|]. split; [reflexivity|].
  transitivity (let '(fill, rest) := fill_rest z in match clean_loop f rest with Some o => Some (pre ++ t ++ (sp :: b) ++ c ++ d ++ fill ++ o) | None => None end); [reflexivity|].
  destruct (fill_rest z) as [fi re]. reflexivity.
Qed.
Lemma fill_len z : List.length (snd (fill_rest z)) <= List.length z.
Proof. destruct (fill_cases z) as [(r & -> & E)|(_ & E)]; rewrite E; cbn; lia. Qed.
Lemma round_len l pre t b c d z : round l pre t b c d z -> List.length (snd (fill_rest z)) < List.length l.
Proof.
  intros R. pose proof (fill_len z). rewrite (ro_l _ _ _ _ _ _ _ R). destruct (tokw_cons _ (ro_t _ _ _ _ _ _ _ R)) as (x & y & -> & _).
  rewrite !app_length. cbn. lia.
Qed.
Lemma loop_total n : forall l, List.length l < n -> clean_loop n l <> None.
Proof.
  induction n as [|n IH]; intros l H; [lia|]. destruct (find_token l) as [[pre tok]|] eqn:F.
  - destruct (loop_round n l pre tok F) as (t & b & c & d & z & R & _ & E). rewrite E. pose proof (round_len _ _ _ _ _ _ _ R).
    destruct (clean_loop n (snd (fill_rest z))) eqn:C; [discriminate|]. apply IH in C; [auto|lia].
  - cbn. now rewrite F.
Qed.
Lemma fill_app z : z = (match fst (fill_rest z) with [] => [] | _ => [col] end) ++ snd (fill_rest z).
Proof. destruct (fill_cases z) as [(r & -> & E)|(_ & E)]; rewrite E; reflexivity. Qed.

Lemma blanked_app whole u : forall a b, blanked whole a b -> blanked whole (u ++ a) (u ++ b).
Proof. induction u; intros; cbn; auto. constructor. auto. Qed.
Lemma loop_blanked n : forall l o whole p0, clean_loop n l = Some o -> whole = p0 ++ l -> blanked whole l o.
Proof.
  induction n as [|n IH]; intros l o whole p0 H E; [discriminate|]. destruct (find_token l) as [[pre tok]|] eqn:F.
  - destruct (loop_round n l pre tok F) as (t & b & c & d & z & R & _ & EQ). rewrite EQ in H.
    destruct (clean_loop n (snd (fill_rest z))) as [o'|] eqn:C; [|discriminate]. inversion H; subst o. clear H EQ.
    pose proof (ro_l _ _ _ _ _ _ _ R) as El. rewrite El. rewrite El in E.
    do 2 apply blanked_app. cbn [app]. apply bl_same. do 3 apply blanked_app.
    destruct (fill_cases z) as [(r & -> & Ez)|(_ & Ez)]; rewrite Ez in *; cbn [fst snd app] in *.
    + eapply (bl_colon _ (p0 ++ pre) t b c d); [rewrite <- !app_assoc; exact E|apply R|apply R|apply R|apply R|].
      apply (IH _ _ _ (p0 ++ pre ++ t ++ (sp :: b) ++ c ++ d ++ [col]) C). rewrite E. rewrite <- !app_assoc. reflexivity.
    + apply (IH _ _ _ (p0 ++ pre ++ t ++ (sp :: b) ++ c ++ d) C). rewrite E. rewrite <- !app_assoc. reflexivity.
  - cbn in H. rewrite F in H. inversion H; subst. clear. generalize (p0 ++ o). intros W. induction o; constructor; auto.
Qed.
(** The first character is never altered. *)
Lemma loop_head n l o : clean_loop n l = Some o -> hd_error o = hd_error l.
Proof.
  destruct n as [|n]; intros H; [discriminate|]. destruct (find_token l) as [[pre tok]|] eqn:F.
  - destruct (loop_round n l pre tok F) as (t & b & c & d & z & R & _ & EQ). rewrite EQ in H. destruct (clean_loop n (snd (fill_rest z))); [|discriminate].
    inversion H; subst. rewrite (ro_l _ _ _ _ _ _ _ R). destruct (tokw_cons _ (ro_t _ _ _ _ _ _ _ R)) as (x & y & -> & _). destruct pre; reflexivity.
  - cbn in H. rewrite F in H. now inversion H.
Qed.
Lemma loop_head_not f n l o : clean_loop n l = Some o -> head_not f l -> head_not f o.
Proof. intros H N c r ->. apply loop_head in H. destruct l as [|a l]; [discriminate|]. cbn in H. inversion H; subst. eapply N; eauto. Qed.
(** Leading white space followed by a colon is not altered. *)
Lemma loop_lead n l o w z : clean_loop n l = Some o -> o = w ++ col :: z -> all is_ws w -> exists z', l = w ++ col :: z'.
Proof.
  destruct n as [|n]; intros H E A; [discriminate|]. destruct (find_token l) as [[pre tok]|] eqn:F.
  - destruct (loop_round n l pre tok F) as (t & b & c & d & y & R & _ & EQ). rewrite EQ in H. destruct (clean_loop n (snd (fill_rest y))) as [o'|]; [|discriminate].
    inversion H as [Ho]. rewrite (ro_l _ _ _ _ _ _ _ R). destruct (tokw_cons _ (ro_t _ _ _ _ _ _ _ R)) as (x & t' & -> & LX).
    rewrite E in Ho. clear - Ho A LX.
    assert (G : forall Y Y2 w, all is_ws w -> pre ++ x :: Y = w ++ col :: z -> exists z', pre ++ x :: Y2 = w ++ col :: z').
    { clear Ho A w. intros Y Y2. induction pre as [|a p IH]; intros [|s w] A G; cbn in *.
      - inversion G; subst. discriminate.
      - inversion G; subst. inversion A; subst. apply ws_not_letter in H1. congruence.
      - inversion G; subst. eexists. reflexivity.
      - inversion G; subst. inversion A; subst. destruct (IH w H3 H1) as (z' & ->). eauto. }
    apply (G _ (t' ++ (sp :: b) ++ c ++ d ++ y) w A Ho).
  - cbn in H. rewrite F in H. inversion H; subst. eauto.
Qed.

(** [kind k l]: patterns of this kind are the ones the filter removes from [l]. *)
Definition kind (k : string) (l : str) : Prop := k = "error"%string \/ (k = "warning"%string /\ find_i ERROR l = None).
Lemma kind_tok k t : k = "error"%string \/ k = "warning"%string -> word k t -> tokw t.
Proof. intros [->| ->] H; [now left|now right]. Qed.
Lemma kind_ew k l : kind k l -> k = "error"%string \/ k = "warning"%string.
Proof. unfold kind. tauto. Qed.
Lemma kind_suffix k l p r : kind k l -> l = p ++ r -> kind k r.
Proof. intros [->|(-> & H)] E; [now left|right]. split; auto. eapply find_none_suffix; eauto. discriminate. Qed.
(** No token of this kind starts before the one the search returns. *)
Lemma kind_first k l pre tok x1 x2 : kind k l -> find_token l = Some (pre, tok) -> pre = x1 ++ x2 -> x2 <> [] -> begins_i (L k ++ [sp]) (x2 ++ tok) = false.
Proof.
  intros K F E N. destruct (token_shape _ _ _ F) as (El & _). assert (LT : List.length x1 < List.length pre) by (rewrite E, app_length; destruct x2; [congruence|cbn; lia]).
  assert (Eq : l = x1 ++ x2 ++ tok) by (rewrite El, E; now rewrite <- app_assoc).
  unfold find_token in F. destruct K as [->|(-> & NE)].
  - destruct (find_i ERROR l) as [[p q]|] eqn:FE.
    + inversion F; subst p q. apply find_some in FE. destruct FE as (_ & _ & N2). eapply N2; eauto.
    + eapply (find_none ERROR); eauto. discriminate.
  - rewrite NE in F. apply find_some in F. destruct F as (_ & _ & N2). eapply N2; eauto.
Qed.
Lemma kind_none k l p q : kind k l -> find_token l = None -> l = p ++ q -> begins_i (L k ++ [sp]) q = false.
Proof.
  intros K F E. unfold find_token in F. destruct (find_i ERROR l) as [[? ?]|] eqn:FE; [discriminate|].
  destruct K as [->|(-> & _)]; [eapply (find_none ERROR); eauto; discriminate|eapply (find_none WARNING); eauto; discriminate].
Qed.
(** In a text of kind [k], the token found is at least as long as the word [k]. *)
Lemma kind_long k l pre tok t q : kind k l -> find_token l = Some (pre, tok) -> tok = t ++ sp :: q -> tokw t -> List.length (L k) <= List.length t.
Proof.
  intros [->|(-> & NE)] F E [W|W]; pose proof (word_len _ _ W) as LN; rewrite LN; cbn; try lia. exfalso.
  destruct (token_shape _ _ _ F) as (El & _). pose proof (begins_word "error" t q W) as B. rewrite <- E in B. change (L "error" ++ [sp]) with ERROR in B.
  rewrite (find_none ERROR l ltac:(discriminate) NE pre tok El) in B. discriminate.
Qed.

Lemma usual_suffix l p r : usual l -> l = p ++ r -> usual r.
Proof. intros U -> p' t w1 code z E. apply (U (p ++ p') t w1 code z). rewrite E. now rewrite <- app_assoc. Qed.
Lemma all_app f a b : all f (a ++ b) <-> all f a /\ all f b.
Proof. unfold all. apply Forall_app. Qed.
Lemma letters_alnum t : all is_letter t -> all is_alnum t.
Proof. unfold all. intros H. eapply Forall_impl; [|exact H]. cbn. apply letter_alnum. Qed.

Lemma loop_hidden n : forall l o k, clean_loop n l = Some o -> usual l -> kind k l -> forall p q, o = p ++ q -> ~ pattern k q.
Proof.
  induction n as [|n IH]; intros l o k H U K p q Eo; [discriminate|]. intros (tk & w1 & code & w2 & rest & Eq & Wk & A1 & A2 & A3).
  destruct (find_token l) as [[pre tok]|] eqn:F.
  2:{ cbn in H. rewrite F in H. assert (EL : l = p ++ q) by congruence. pose proof (kind_none k l p q K F EL) as B.
      rewrite Eq in B. cbn [app] in B. rewrite (begins_word k tk _ Wk) in B. discriminate. }
  destruct (loop_round n l pre tok F) as (t & b & c & d & z & R & Et & EQ). rewrite EQ in H. clear EQ.
  destruct (clean_loop n (snd (fill_rest z))) as [o'|] eqn:C; [|discriminate]. inversion H as [Ho]. clear H. rewrite Eo in Ho. symmetry in Ho.
  pose proof (ro_l _ _ _ _ _ _ _ R) as El. pose proof (ro_t _ _ _ _ _ _ _ R) as Rt. pose proof (tokw_letters _ Rt) as Lt.
  pose proof (kind_tok _ _ (kind_ew _ _ K) Wk) as Tk. pose proof (tokw_letters _ Tk) as Lk. destruct (tokw_cons _ Tk) as (tk0 & tk' & Etk & Ltk0).
  assert (HNsp : forall (f : ascii -> bool) y, f sp = false -> head_not f (sp :: y)) by (intros; now apply head_not_cons).
  (* the text after the code, in the output *)
  assert (UZ := U pre t b c (d ++ z) El Rt (ro_b _ _ _ _ _ _ _ R) (ro_c _ _ _ _ _ _ _ R) (ro_h3 _ _ _ _ _ _ _ R)). destruct UZ as (U1 & U2).
  (* heads of what follows in the output *)
  assert (HW : fst (fill_rest z) = [] -> head_not is_ws o' /\ (forall r, o' <> col :: r) /\ (d = [] -> head_not is_alnum o')).
  { intros Ef. destruct (fill_cases z) as [(r & Ez & Ef2)|(NC & Ef2)]; rewrite Ef2 in *; cbn [fst snd] in *; [discriminate|].
    split; [eapply loop_head_not; [exact C|apply R]|]. split.
    - intros r ->. apply loop_head in C. destruct z as [|y z]; [discriminate|]. cbn in C. inversion C; subst. now apply (NC z).
    - intros ->. eapply loop_head_not; [exact C|]. apply (ro_h3 _ _ _ _ _ _ _ R). }
  assert (HC : fst (fill_rest z) = [sp] -> c <> [] /\ forall w3 z3, o' = w3 ++ col :: z3 -> ~ all is_ws w3).
  { intros Ef. destruct (fill_cases z) as [(r & Ez & Ef2)|(NC & Ef2)]; rewrite Ef2 in *; cbn [fst snd] in *; [|discriminate]. subst z.
    destruct (U2 d r eq_refl (ro_d _ _ _ _ _ _ _ R)) as (V1 & V2). split; auto. intros w3 z3 E3 Aw.
    destruct (loop_lead _ _ _ _ _ C E3 Aw) as (z' & E4). exact (V2 _ _ E4 Aw). }
  assert (FC : fst (fill_rest z) = [] \/ fst (fill_rest z) = [sp]) by (destruct (fill_cases z) as [(r & _ & ->)|(_ & ->)]; auto).
  (* where does the pattern start? *)
  apply app_split in Ho. destruct Ho as [(p1 & -> & Ho)|(x1 & x2 & Ex & -> & Nx & Eq2)].
  2:{ (* in the text before the token *)
      pose proof (kind_first k l pre tok x1 x2 K F Ex Nx) as B. rewrite Eq in Eq2.
      pose proof (begins_word k tk ((w1) ++ code ++ w2 ++ col :: rest) Wk) as B2. change (tk ++ sp :: w1 ++ code ++ w2 ++ col :: rest) with (tk ++ (sp :: w1) ++ code ++ w2 ++ col :: rest) in B2.
      rewrite Eq2 in B2. rewrite Et in B.
      assert (LN : List.length (L k ++ [sp]) <= List.length (x2 ++ t)).
      { rewrite !app_length. pose proof (kind_long k l pre tok t _ K F Et Rt). destruct x2; [congruence|]. cbn. lia. }
      rewrite app_assoc in B, B2. rewrite (begins_app _ _ _ ((sp :: b) ++ c ++ d ++ z) LN) in B2. congruence. }
  symmetry in Ho. apply app_split in Ho. destruct Ho as [(p2 & -> & Ho)|(x1 & x2 & Ex & -> & Nx & Eq2)].
  2:{ (* in the token *)
      assert (Lx : all is_letter x2) by (rewrite Ex in Lt; apply all_app in Lt; tauto).
      rewrite Eq in Eq2. cbn [app] in Eq2.
      destruct (split_unique is_letter tk x2 _ _ Lk Lx (HNsp is_letter _ eq_refl) (HNsp is_letter _ eq_refl) Eq2) as (E2 & E3). subst x2. inversion E3 as [E4]. clear Eq2 E3.
      destruct x1 as [|x0 x1].
      - (* it is the token itself *)
        cbn in Ex. subst tk. clear Nx.
        assert (ND : head_not is_ws (c ++ d ++ fst (fill_rest z) ++ o')).
        { destruct c as [|c0 c'].
          - destruct FC as [Ef|Ef]; [|destruct (HC Ef); congruence]. pose proof (ro_h2 _ _ _ _ _ _ _ R) as H2. cbn [app] in *.
            destruct d as [|d0 d']; [|exfalso; pose proof (H2 _ _ eq_refl); pose proof (ro_d _ _ _ _ _ _ _ R) as D; inversion D; subst; congruence].
            rewrite Ef. cbn. apply (HW Ef).
          - cbn. apply head_not_cons. pose proof (ro_c _ _ _ _ _ _ _ R) as D. inversion D; subst. now apply alnum_not_ws. }
        assert (NA : head_not is_alnum (d ++ fst (fill_rest z) ++ o')).
        { destruct d as [|d0 d'].
          - destruct FC as [Ef|Ef]; rewrite Ef; [apply HW; auto|now apply head_not_cons].
          - cbn. apply head_not_cons. pose proof (ro_d _ _ _ _ _ _ _ R) as D. inversion D; subst. now apply ws_not_alnum. }
        (* compare the pattern's parts with the scanned ones *)
        assert (NP : head_not is_ws (code ++ w2 ++ col :: rest) \/ code = []).
        { destruct code as [|c0 cc]; [now right|left]. cbn. apply head_not_cons. inversion A2; subst. now apply alnum_not_ws. }
        destruct NP as [NP| ->].
        + destruct (split_unique is_ws w1 b _ _ A1 (ro_b _ _ _ _ _ _ _ R) NP ND E4) as (-> & E5).
          assert (NQ : head_not is_alnum (w2 ++ col :: rest)).
          { destruct w2 as [|v0 v]; cbn; apply head_not_cons; [reflexivity|]. inversion A3; subst. now apply ws_not_alnum. }
          destruct (split_unique is_alnum code c _ _ A2 (ro_c _ _ _ _ _ _ _ R) NQ NA E5) as (-> & E6).
          destruct FC as [Ef|Ef]; rewrite Ef in E6; cbn [app] in E6.
          * destruct (split_unique is_ws w2 d _ _ A3 (ro_d _ _ _ _ _ _ _ R) (head_not_cons is_ws col rest eq_refl) (proj1 (HW Ef)) E6) as (_ & E7).
            apply (proj1 (proj2 (HW Ef)) rest). auto.
          * apply app_split in E6. destruct E6 as [(p' & E6 & E7)|(y1 & y2 & E6 & -> & Ny & E7)].
            -- destruct p' as [|v p']; [discriminate|]. cbn in E7. inversion E7; subst v o'. apply (proj2 (HC Ef) p' rest eq_refl).
               rewrite E6 in A3. apply all_app in A3. destruct A3 as (_ & A3). inversion A3; auto.
            -- destruct y2 as [|v y2]; [congruence|]. cbn in E7. inversion E7; subst v. pose proof (ro_d _ _ _ _ _ _ _ R) as D. rewrite E6 in D. apply all_app in D. destruct D as (_ & D). inversion D; subst. discriminate.
        + (* the pattern has an empty code: only white space up to its colon *)
          cbn [app] in E4. rewrite app_assoc in E4.
          assert (AW : all is_ws (w1 ++ w2)) by (apply all_app; auto).
          destruct (split_unique is_ws (w1 ++ w2) b _ _ AW (ro_b _ _ _ _ _ _ _ R) (head_not_cons is_ws col rest eq_refl) ND E4) as (_ & E5).
          destruct c as [|c0 c'].
          * destruct FC as [Ef|Ef]; [|destruct (HC Ef); congruence]. cbn [app] in E5. rewrite Ef in E5. cbn [app] in E5.
            destruct d as [|d0 d']; cbn [app] in E5; [symmetry in E5; now apply (proj1 (proj2 (HW Ef)) _) in E5|].
            pose proof (ro_d _ _ _ _ _ _ _ R) as D. inversion D; subst. inversion E5; subst. discriminate.
          * pose proof (ro_c _ _ _ _ _ _ _ R) as D. inversion D; subst. inversion E5; subst. discriminate.
      - (* a proper suffix of the token is not a token *)
        destruct Rt as [W|W], (kind_ew _ _ K) as [->| ->]; pose proof (word_len _ _ W) as L1; pose proof (word_len _ _ Wk) as L2; rewrite Ex in L1; cbn [app List.length] in L1; rewrite app_length in L1; rewrite L2 in L1; cbn in L1; try lia.
        (* "warning" has no suffix "error" *)
        assert (X1 : List.length x1 = 1) by lia. destruct x1 as [|x3 [|? ?]]; cbn in X1; try discriminate. unfold word in W. rewrite Ex in W. cbn [lower map app] in W.
        inversion W. fold (lower tk) in *. unfold word in Wk. unfold lower in *. rewrite Wk in *. discriminate. }
  symmetry in Ho. change (p2 ++ q = (sp :: b) ++ c ++ d ++ fst (fill_rest z) ++ o') in Ho. apply app_split in Ho. destruct Ho as [(p3 & -> & Ho)|(x1 & x2 & Ex & -> & Nx & Eq2)].
  2:{ (* in the white space after the token *)
      destruct x2 as [|v x2]; [congruence|]. assert (V : is_ws v = true).
      { assert (AA : all is_ws (sp :: b)) by (constructor; [reflexivity|apply R]). rewrite Ex in AA. apply all_app in AA. destruct AA as (_ & AA). now inversion AA. }
      rewrite Eq, Etk in Eq2. cbn in Eq2. inversion Eq2; subst. apply ws_not_letter in V. congruence. }
  symmetry in Ho. apply app_split in Ho. destruct Ho as [(p4 & -> & Ho)|(x1 & x2 & Ex & -> & Nx & Eq2)].
  2:{ (* in the code *)
      assert (Ax : all is_alnum x2) by (pose proof (ro_c _ _ _ _ _ _ _ R) as D; rewrite Ex in D; apply all_app in D; tauto).
      assert (NA : head_not is_alnum (d ++ fst (fill_rest z) ++ o')).
      { destruct d as [|d0 d'].
        - destruct FC as [Ef|Ef]; rewrite Ef; [apply HW; auto|now apply head_not_cons].
        - cbn. apply head_not_cons. pose proof (ro_d _ _ _ _ _ _ _ R) as D. inversion D; subst. now apply ws_not_alnum. }
      rewrite Eq in Eq2. cbn [app] in Eq2.
      destruct (split_unique is_alnum tk x2 _ _ (letters_alnum _ Lk) Ax (HNsp is_alnum _ eq_refl) NA Eq2) as (<- & _).
      destruct (U1 x1 tk Ex) as (V1 & V2). destruct Tk; contradiction. }
  symmetry in Ho. apply app_split in Ho. destruct Ho as [(p5 & -> & Ho)|(x1 & x2 & Ex & -> & Nx & Eq2)].
  2:{ destruct x2 as [|v x2]; [congruence|]. assert (V : is_ws v = true).
      { pose proof (ro_d _ _ _ _ _ _ _ R) as D. rewrite Ex in D. apply all_app in D. destruct D as (_ & D). now inversion D. }
      rewrite Eq, Etk in Eq2. cbn in Eq2. inversion Eq2; subst. apply ws_not_letter in V. congruence. }
  symmetry in Ho. apply app_split in Ho. destruct Ho as [(p6 & -> & Ho)|(x1 & x2 & Ex & -> & Nx & Eq2)].
  2:{ destruct x2 as [|v x2]; [congruence|]. assert (V : v = sp).
      { destruct FC as [Ef|Ef]; rewrite Ef in Ex; [destruct x1; discriminate|]. destruct x1 as [|? [|? ?]]; inversion Ex; auto. }
      rewrite Eq, Etk in Eq2. cbn in Eq2. inversion Eq2; subst. discriminate. }
  (* in the rest: induction *)
  assert (SUF : l = (pre ++ t ++ (sp :: b) ++ c ++ d ++ match fst (fill_rest z) with [] => [] | _ => [col] end) ++ snd (fill_rest z)).
  { rewrite El at 1. rewrite (fill_app z) at 1. now rewrite <- !app_assoc. }
  apply (IH _ _ k C (usual_suffix _ _ _ U SUF) (kind_suffix _ _ _ _ K SUF) p6 q Ho).
  exists tk, w1, code, w2, rest. repeat split; auto.
Qed.

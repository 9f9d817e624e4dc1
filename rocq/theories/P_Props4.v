(** Proofs: settings. *)
From Coq Require Import String List Arith Bool Ascii ZArith Lia.
From Verif Require Import M_Path M_Names M_Dir M_Props S_Props P_Props P_Props2 P_Props3.
Import ListNotations.
Open Scope list_scope.

Section Induction.
Context (P : prop -> Prop).
Definition members (ty : ptype) : list prop := match ty with PStructs c | PEmbed c => c | _ => [] end.
Lemma prop_deep : (forall n ty h r i, Forall P (members ty) -> P (mkProp n ty h r i)) -> forall q, P q.
Proof.
  intro H. fix IH 1. intros [n ty h r i]. apply H.
  assert (L : forall c : list prop, Forall P c).
  { fix IL 1. intros [|q c]; constructor; [ apply IH | apply IL ]. }
  destruct ty; cbn [members]; first [ constructor | apply L ].
Qed.
End Induction.

Section Cleaner.
Context (p : plat) (cp : str -> str).
Notation gives := (gives p cp). Notation texts_of := (texts_of p cp).

Lemma pop_prop_eq env n ty h req i v g : pop_prop p cp env (mkProp n ty h req i) v g =
  match ty with
  | PEmbed cls =>
      match pop_class p cp env (fun q => env (dotted (pname q))) cls g with
      | Some (g', l) => Some (g', Some (SetEmbed l)) | None => None end
  | _ =>
      match v with
      | None => if req then None else Some (g, None)
      | Some x =>
          match ty with
          | PStr true m => match pop_strs p cp g m req x with Some l => Some (g, Some (SetStrs l)) | None => None end
          | PStr false m => match pop_str p cp g m req x with Some s => Some (g, Some (SetStr s)) | None => None end
          | PBool => match x with VBool b => Some (g, Some (SetBool b)) | _ => None end
          | PInt r => match x with VInt z => if in_range r z then Some (g, Some (SetInt z)) else None | _ => None end
          | PUInt r =>
              match x with
              | VInt z => if in_range r z then Some (g, Some (SetUInt (z mod 4294967296)%Z)) else None
              | _ => None
              end
          | PStructs cls =>
              match structs_in x with
              | Some l => match each (fun ms => pop_class p cp env (for_member env ms) cls) l g with
                          | Some (g', y) => Some (g', Some (SetStructs y)) | None => None end
              | None => None
              end
          | PNodes arr =>
              match pop_nodes cp g arr req (env (dotted n)) with
              | Some (g', y) => Some (g', Some y) | None => None end
          | PEmbed _ => None
          end
      end
  end.
Proof. destruct ty; try reflexivity. destruct v as [[]|]; reflexivity. Qed.

(** ** Strings *)
Lemma var_strings_iff g m v l : healthy g -> (var_strings p cp g m v = Some l <-> texts_of g m v l).
Proof.
  intro HG. unfold var_strings, S_Props.texts_of. destruct v; cbn [names_in];
    try (split; [ discriminate | intros (ss & ls & X & _); discriminate ]).
  - rewrite (strings_gives p cp g m s l HG). split.
    + intro H. exists [s], [l]. split; [ reflexivity | ]. split; [ auto | ]. cbn. now rewrite app_nil_r.
    + intros (ss & ls & X & F & ->). injection X as <-. inversion F as [|? y ? ? H T]; subst. inversion T; subst.
      cbn. now rewrite app_nil_r.
  - rewrite all_of_iff. split.
    + intros (rs & F & ->). exists l0, rs. split; [ reflexivity | ]. split; [ | reflexivity ].
      induction F; constructor; [ now apply (strings_gives p cp g m) | assumption ].
    + intros (ss & ls & X & F & ->). injection X as <-. exists ls. split; [ | reflexivity ].
      induction F; constructor; [ now apply (strings_gives p cp g m) | assumption ].
Qed.
Lemma has_empty (l : list str) : existsb (fun s => match s with [] => true | _ => false end) l = true <-> In [] l.
Proof.
  rewrite existsb_exists. split.
  - intros (x & I & E). destruct x; [ exact I | discriminate ].
  - intro I. exists []. auto.
Qed.
Lemma pop_strs_iff g m req v l : healthy g -> (pop_strs p cp g m req v = Some l <->
  texts_of g m v l /\ ~ In [] l /\ (req = true -> l <> [])).
Proof.
  intro HG. rewrite <- (var_strings_iff g m v l HG). unfold pop_strs.
  destruct (var_strings p cp g m v) as [l0|]; [ | split; [ discriminate | intros [X _]; discriminate ] ].
  destruct (existsb (fun s => match s with [] => true | _ => false end) l0) eqn:E.
  - apply has_empty in E. split.
    + intro H. destruct (match l0 with [] => true | _ => false end && req); discriminate.
    + intros (X & Y & _). injection X as ->. contradiction.
  - assert (NI : ~ In [] l0) by (intro I; apply has_empty in I; congruence).
    destruct (match l0 with [] => true | _ => false end && req) eqn:R.
    + apply andb_true_iff in R. destruct R as [R ->]. destruct l0; [ | discriminate ].
      split; [ discriminate | ]. intros (X & _ & Y). injection X as <-. destruct (Y eq_refl eq_refl).
    + split.
      * intro H. injection H as <-. split; [ reflexivity | ]. split; [ exact NI | ]. intros -> ->. discriminate.
      * intros (X & _). exact X.
Qed.
Lemma pop_str_iff g m req v t : healthy g -> (pop_str p cp g m req v = Some t <-> exists s, v = VStr s /\
  (s <> [] /\ t <> [] /\ gives g m s [t] \/
   req = false /\ t = [] /\ exists l, gives g m s l /\ (l = [] \/ exists r, l = [] :: r))).
Proof.
  intro HG. unfold pop_str, var_strings. destruct v;
    try (split; [ discriminate | intros (s' & X & _); discriminate ]).
  - split.
    + intro H. exists s. split; [ reflexivity | ].
      destruct (strings p cp (S (S (List.length g))) g m s) as [l|] eqn:E; [ | discriminate ].
      apply (strings_gives p cp g m s l HG) in E.
      destruct l as [|[|c u] r].
      * right. destruct req; [ discriminate | ]. injection H as <-. eauto 10.
      * right. destruct req; [ discriminate | ]. injection H as <-. eauto 10.
      * destruct r; [ | discriminate ]. injection H as <-. left. split; [ | split; [ discriminate | exact E ] ].
        intros ->. apply (strings_gives p cp g m [] _ HG) in E. cbn [strings] in E. discriminate.
    + intros (s' & X & H). injection X as <-. destruct H as [(A & B & C)|(-> & -> & l & C & D)].
      * apply (strings_gives p cp g m s _ HG) in C. rewrite C. destruct t; [ congruence | reflexivity ].
      * apply (strings_gives p cp g m s _ HG) in C. rewrite C. destruct D as [-> | (r & ->)]; reflexivity.
  - split; [ | intros (s' & X & _); discriminate ]. destruct (all_of _ _); discriminate.
Qed.
Lemma range_iff r z : in_range r z = true <-> within r z.
Proof. destruct r as [[a b]|]; cbn; [ | tauto ]. rewrite andb_true_iff, !Z.leb_le. tauto. Qed.

(** ** Members of structs *)
Lemma member_some ms n v : member ms n = Some v <-> has_member ms n v.
Proof.
  induction ms as [|[m w] ms IH]; cbn [member].
  - split; [ discriminate | ]. intros (a & b & H & _). destruct a; discriminate.
  - destruct (same m n) eqn:E.
    + apply same_iff in E. subst m. split.
      * intro H. injection H as <-. exists [], ms. split; [ reflexivity | tauto ].
      * intros (a & b & H & N). destruct a as [|x a]; [ injection H as <- _; reflexivity | ].
        injection H as <- _. destruct N. now left.
    + assert (NE : m <> n) by (intro Q; apply same_iff in Q; congruence). rewrite IH. split.
      * intros (a & b & -> & N). exists ((m, w) :: a), b. split; [ reflexivity | ]. cbn. tauto.
      * intros (a & b & H & N). destruct a as [|x a]; [ injection H as -> _ _; congruence | ].
        injection H as <- ->. exists a, b. split; [ reflexivity | ]. intro I. apply N. now right.
Qed.
Lemma member_none ms n : member ms n = None <-> no_member ms n.
Proof.
  unfold no_member. induction ms as [|[m w] ms IH]; cbn [member map fst]; [ tauto | ].
  destruct (same m n) eqn:E.
  - apply same_iff in E. split; [ discriminate | ]. intro H. destruct H. now left.
  - assert (NE : m <> n) by (intro Q; apply same_iff in Q; congruence). rewrite IH. cbn. tauto.
Qed.
Lemma for_member_ok env ms : of_struct env ms (for_member env ms).
Proof.
  intro q. unfold for_member. split.
  - intros v H. apply member_some in H. now rewrite H.
  - intro H. apply member_none in H. now rewrite H.
Qed.
Lemma for_member_only env ms look q : of_struct env ms look -> look q = for_member env ms q.
Proof.
  intro H. destruct (H q) as [A B]. unfold for_member. destruct (member ms (dotted (pname q))) as [w|] eqn:E.
  - apply A. now apply member_some.
  - apply B. now apply member_none.
Qed.
Lemma pop_class_ext env l1 l2 : (forall q, l1 q = l2 q) -> forall cls g, pop_class p cp env l1 cls g = pop_class p cp env l2 cls g.
Proof.
  intros H cls. induction cls as [|q r IH]; intro g; cbn [pop_class]; [ reflexivity | ].
  rewrite H. fold (pop_class p cp env l1) (pop_class p cp env l2). rewrite IH.
  destruct (hidden q); [ reflexivity | ]. destruct (pop_prop p cp env q (l2 q) g) as [[g1 x]|]; [ | reflexivity ]. now rewrite IH.
Qed.

(** ** Lists of targets *)
Lemma pop_nodes_iff g arr req v g' x : healthy g -> (pop_nodes cp g arr req v = Some (g', x) <->
  (v = None /\ req = false /\ g' = g /\ x = if arr then SetNodes [] else SetNode None) \/
  (exists w ss l, v = Some w /\ names_in w = Some ss /\ lists_each cp all_opts g ss g' l /\
    (arr = true /\ x = SetNodes l \/ arr = false /\ (l = [] /\ x = SetNode None \/ exists k, l = [k] /\ x = SetNode (Some k))))).
Proof.
  intro HG. unfold pop_nodes.
  assert (EQ : match v with
         | None => if req then None else Some (g, [])
         | Some (VStrs l) => list_names cp all_opts g l []
         | Some (VStr s) => list_names cp all_opts g [s] []
         | Some _ => None
         end = match v with
               | None => if req then None else Some (g, [])
               | Some w => match names_in w with Some ss => list_names cp all_opts g ss [] | None => None end
               end) by (destruct v as [[]|]; reflexivity).
  rewrite EQ. clear EQ. destruct v as [w|].
  - destruct (names_in w) as [ss|] eqn:NW.
    + destruct (list_names cp all_opts g ss []) as [[g1 l]|] eqn:E.
      * apply (list_names_iff cp all_opts ss g [] g1 l HG) in E. destruct E as (r & E & ->). cbn [app].
        assert (DET : forall g2 l2, lists_each cp all_opts g ss g2 l2 -> g2 = g1 /\ l2 = r).
        { intros g2 l2 H. assert (X := proj2 (list_names_iff cp all_opts ss g [] g2 l2 HG) (ex_intro _ l2 (conj H eq_refl))).
          assert (Y := proj2 (list_names_iff cp all_opts ss g [] g1 r HG) (ex_intro _ r (conj E eq_refl))).
          rewrite X in Y. injection Y as -> ->. auto. }
        split.
        -- intro H. right. exists w, ss, r. split; [ reflexivity | ]. split; [ exact NW | ].
           destruct arr; [ injection H as <- <-; auto | ].
           destruct r as [|k [|k' r]]; [ | | discriminate ]; injection H as <- <-; eauto 10.
        -- intros [(X & _)|(w' & ss' & l' & X & Y & Z & R)]; [ discriminate | ].
           injection X as <-. rewrite NW in Y. injection Y as <-. destruct (DET _ _ Z) as [-> ->].
           destruct R as [[-> ->]|[-> [[-> ->]|(k & -> & ->)]]]; reflexivity.
      * split; [ discriminate | ]. intros [(X & _)|(w' & ss' & l' & X & Y & Z & _)]; [ discriminate | ].
        injection X as <-. rewrite NW in Y. injection Y as <-.
        assert (W := proj2 (list_names_iff cp all_opts ss g [] g' l' HG) (ex_intro _ l' (conj Z eq_refl))). congruence.
    + split; [ discriminate | ]. intros [(X & _)|(w' & ss' & l' & X & Y & _)]; [ discriminate | ].
      injection X as <-. congruence.
  - destruct req.
    + split; [ discriminate | ]. intros [(_ & X & _)|(w' & ss' & l' & X & _)]; discriminate.
    + split.
      * intro H. left. destruct arr; injection H as <- <-; auto.
      * intros [(_ & _ & -> & ->)|(w' & ss' & l' & X & _)]; [ destruct arr; reflexivity | discriminate ].
Qed.

(** ** Soundness *)
Notation sets := (sets p cp). Notation sets_class := (sets_class p cp). Notation sets_structs := (sets_structs p cp).
Definition sound (q : prop) : Prop := forall env v g x g', healthy g ->
  pop_prop p cp env q v g = Some (g', x) -> sets env q v g x g' /\ healthy g'.
Lemma class_sound env look cls : Forall sound cls -> forall g l g', healthy g ->
  pop_class p cp env look cls g = Some (g', l) -> sets_class env look cls g l g' /\ healthy g'.
Proof.
  induction 1 as [|q r HQ F IH]; intros g l g' HG H; cbn [pop_class] in H.
  - injection H as <- <-. split; [ constructor | exact HG ].
  - fold (pop_class p cp env look) in H. destruct (hidden q) eqn:HD.
    + destruct (IH g l g' HG H) as [A B]. split; [ now apply class_hidden | exact B ].
    + destruct (pop_prop p cp env q (look q) g) as [[g1 x]|] eqn:E; [ | discriminate ].
      destruct (HQ env (look q) g x g1 HG E) as [A HG1].
      destruct (pop_class p cp env look r g1) as [[g2 y]|] eqn:E2; [ | discriminate ].
      destruct (IH g1 y g2 HG1 E2) as [B HG2]. injection H as <- <-. split; [ | exact HG2 ].
      destruct x; [ eapply class_set; eauto | eapply class_left; eauto ].
Qed.
Lemma structs_sound env cls : Forall sound cls -> forall ss g l g', healthy g ->
  each (fun ms => pop_class p cp env (for_member env ms) cls) ss g = Some (g', l) ->
  sets_structs env cls ss g l g' /\ healthy g'.
Proof.
  intros F ss. induction ss as [|ms ss IH]; intros g l g' HG H; cbn [each] in H.
  - injection H as <- <-. split; [ constructor | exact HG ].
  - destruct (pop_class p cp env (for_member env ms) cls g) as [[g1 y]|] eqn:E; [ | discriminate ].
    destruct (class_sound env _ cls F g y g1 HG E) as [A HG1].
    destruct (each _ ss g1) as [[g2 ys]|] eqn:E2; [ | discriminate ].
    destruct (IH g1 ys g2 HG1 E2) as [B HG2]. injection H as <- <-. split; [ | exact HG2 ].
    econstructor; eauto. apply for_member_ok.
Qed.
Lemma all_sound q : sound q.
Proof.
  induction q as [n ty h r i F] using prop_deep. intros env v g x g' HG H.
  rewrite pop_prop_eq in H.
  assert (NONE : v = None -> no_embed ty -> (if r then None else Some (g, None)) = Some (g', x) ->
                 sets env (mkProp n ty h r i) v g x g' /\ healthy g').
  { intros -> NE X. destruct r; [ discriminate | ]. injection X as <- <-. split; [ now constructor | exact HG ]. }
  destruct ty as [arr m | | rg | rg | cls | cls | arr]; cbn [members] in F.
  - destruct v as [w|]; [ | apply NONE; auto; exact I ]. destruct arr.
    + destruct (pop_strs p cp g m r w) as [l|] eqn:E; [ | discriminate ]. injection H as <- <-.
      apply (pop_strs_iff g m r w l HG) in E. destruct E as (A & B & C). split; [ now constructor | exact HG ].
    + destruct (pop_str p cp g m r w) as [t|] eqn:E; [ | discriminate ]. injection H as <- <-.
      apply (pop_str_iff g m r w t HG) in E. destruct E as (s & -> & [(A & B & C)|(-> & -> & l & C & D)]);
        (split; [ | exact HG ]); [ now constructor | eapply set_no_string; eauto ].
  - destruct v as [w|]; [ | apply NONE; auto; exact I ]. destruct w; try discriminate. injection H as <- <-.
    split; [ constructor | exact HG ].
  - destruct v as [w|]; [ | apply NONE; auto; exact I ]. destruct w; try discriminate.
    destruct (in_range rg z) eqn:E; [ | discriminate ]. apply range_iff in E. injection H as <- <-.
    split; [ now constructor | exact HG ].
  - destruct v as [w|]; [ | apply NONE; auto; exact I ]. destruct w; try discriminate.
    destruct (in_range rg z) eqn:E; [ | discriminate ]. apply range_iff in E. injection H as <- <-.
    split; [ now apply set_uint | exact HG ].
  - destruct v as [w|]; [ | apply NONE; auto; exact I ].
    destruct (structs_in w) as [ss|] eqn:E; [ | discriminate ].
    destruct (each _ ss g) as [[g1 y]|] eqn:E2; [ | discriminate ]. injection H as <- <-.
    destruct (structs_sound env cls F ss g y g1 HG E2) as [A B]. split; [ econstructor; eauto | exact B ].
  - destruct (pop_class p cp env _ cls g) as [[g1 l]|] eqn:E; [ | discriminate ]. injection H as <- <-.
    destruct (class_sound env _ cls F g l g1 HG E) as [A B]. split; [ now constructor | exact B ].
  - destruct v as [w|]; [ | apply NONE; auto; exact I ].
    destruct (pop_nodes cp g arr r (env (dotted n))) as [[g1 y]|] eqn:E; [ | discriminate ]. injection H as <- <-.
    apply (pop_nodes_iff g arr r _ g1 y HG) in E.
    destruct E as [(A & -> & -> & ->)|(u & ss & l & A & B & C & D)].
    + split; [ | exact HG ]. destruct arr; [ now apply set_absent_targets | now apply set_absent_target ].
    + split; [ | eapply each_healthy; eauto ].
      destruct D as [[-> ->]|[-> [[-> ->]|(k & -> & ->)]]];
        [ eapply set_targets; eauto | eapply set_no_target; eauto | eapply set_target; eauto ].
Qed.

(** ** Completeness *)
Scheme sets_m := Minimality for S_Props.sets Sort Prop
  with class_m := Minimality for S_Props.sets_class Sort Prop
  with structs_m := Minimality for S_Props.sets_structs Sort Prop.
Combined Scheme sets_mutual from sets_m, class_m, structs_m.
Lemma complete env :
  (forall q v g x g', sets env q v g x g' -> healthy g -> pop_prop p cp env q v g = Some (g', x) /\ healthy g') /\
  (forall look cls g l g', sets_class env look cls g l g' -> healthy g -> pop_class p cp env look cls g = Some (g', l) /\ healthy g') /\
  (forall cls ss g l g', sets_structs env cls ss g l g' -> healthy g ->
     each (fun ms => pop_class p cp env (for_member env ms) cls) ss g = Some (g', l) /\ healthy g').
Proof.
  apply (sets_mutual p cp env); intros; try rewrite pop_prop_eq.
  - split; [ | assumption ]. destruct ty; try reflexivity. destruct H.
  - split; [ | assumption ]. rewrite (proj2 (pop_strs_iff g m r v l H2)) by auto. reflexivity.
  - split; [ | assumption ]. rewrite (proj2 (pop_str_iff g m r (VStr s) t H2)); [ reflexivity | eauto 10 ].
  - split; [ | assumption ]. rewrite (proj2 (pop_str_iff g m false (VStr s) [] H1)); [ reflexivity | eauto 10 ].
  - auto.
  - apply range_iff in H. rewrite H. auto.
  - apply range_iff in H. rewrite H. auto.
  - destruct (H1 H2) as [A B]. rewrite H, A. auto.
  - destruct (H0 H1) as [A B]. rewrite A. auto.
  - split; [ | eapply each_healthy; eauto ]. rewrite (proj2 (pop_nodes_iff g true r (env (dotted n)) g' (SetNodes l) H2)); [ reflexivity | ].
    right. exists v, ss, l. auto 10.
  - split; [ | eapply each_healthy; eauto ]. rewrite (proj2 (pop_nodes_iff g false r (env (dotted n)) g' (SetNode (Some k)) H2)); [ reflexivity | ].
    right. exists v, ss, [k]. eauto 10.
  - split; [ | eapply each_healthy; eauto ]. rewrite (proj2 (pop_nodes_iff g false r (env (dotted n)) g' (SetNode None) H2)); [ reflexivity | ].
    right. exists v, ss, []. auto 10.
  - split; [ | assumption ]. rewrite (proj2 (pop_nodes_iff g true false (env (dotted n)) g (SetNodes []) H0)); [ reflexivity | auto 10 ].
  - split; [ | assumption ]. rewrite (proj2 (pop_nodes_iff g false false (env (dotted n)) g (SetNode None) H0)); [ reflexivity | auto 10 ].
  - auto.
  - cbn [pop_class]. rewrite H. auto.
  - destruct (H1 H4) as [A B]. destruct (H3 B) as [C D]. split; [ | exact D ].
    cbn [pop_class]. fold (pop_class p cp env look). now rewrite H, A, C.
  - destruct (H1 H4) as [A B]. destruct (H3 B) as [C D]. split; [ | exact D ].
    cbn [pop_class]. fold (pop_class p cp env look). now rewrite H, A, C.
  - auto.
  - destruct (H1 H4) as [A B]. destruct (H3 B) as [C D]. split; [ | exact D ]. cbn [each].
    rewrite <- (pop_class_ext env look (for_member env ms)) by (intro q; now apply for_member_only). now rewrite A, C.
Qed.
Lemma populate_iff env cls g l g' : healthy g ->
  (populate p cp env cls g = Some (g', l) <-> sets_class env (fun q => env (dotted (pname q))) cls g l g').
Proof.
  intro HG. split.
  - intro H. eapply class_sound; eauto. apply Forall_forall. intros q _. apply all_sound.
  - intro H. apply (proj1 (proj2 (complete env)) _ _ _ _ _ H HG).
Qed.
End Cleaner.

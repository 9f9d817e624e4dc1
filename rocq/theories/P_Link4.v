From Coq Require Import String List Arith Bool Ascii Lia.
From Verif Require Import M_Path M_Names M_Args S_Args M_Drv S_Drv P_Drv P_Drv3 M_Link S_Link P_Link.
Import ListNotations.
Open Scope list_scope.

Section Others.
Variable cp : str -> str.
Variable p : plat.

Lemma start_gcc_iff t o : is_start_gcc t o = true <-> t = "-"%char :: o ++ skipn (1 + List.length o) t.
Proof.
  destruct t as [|c r]; cbn [is_start_gcc]; [split; [discriminate|intros E; discriminate]|].
  rewrite !andb_true_iff, Ascii.eqb_eq, starts_iff, negb_true_iff, Nat.ltb_ge. cbn [skipn Nat.add]. split.
  - intros [[-> _] (x&->)]. rewrite skipn_app, skipn_all, Nat.sub_diag. reflexivity.
  - intros E. injection E as -> E. split; [split; [reflexivity|]|].
    + rewrite E, app_length. lia.
    + eexists. exact E.
Qed.
Lemma given_gcc t o v : t = "-"%char :: o ++ v -> is_start_gcc t o = true.
Proof. intros ->. apply start_gcc_iff. cbn [skipn Nat.add]. rewrite skipn_app, skipn_all, Nat.sub_diag. reflexivity. Qed.
Definition cleaned (canon : bool) (v : str) : str := if canon && negb (teq v []) then ensure_trailing p (cp v) else v.
Lemma libs_arg_spec ms o canon t next :
  match libs_arg cp p ms o canon t next with
  | None => forall v, ~ given ms t o v
  | Some (a, s) => exists v, given ms t o v /\
      (v = [] /\ s = true /\ a = option_map (fun n => cleaned canon (strip_quotes n)) next \/
       v <> [] /\ s = false /\ a = Some (cleaned canon (strip_quotes v)))
  end.
Proof.
  unfold libs_arg, given. destruct ms.
  - destruct (is_lstart t o) eqn:S.
    + apply is_lstart_value in S. destruct (skipn (1 + List.length o) t) as [|c v].
      * exists []. split; [exact S|]. left. auto.
      * exists (c :: v). split; [exact S|]. right. repeat split. discriminate.
    + intros v G. assert (is_lstart t o = true) by (apply is_lstart_iff; eauto). congruence.
  - destruct (is_start_gcc t o) eqn:S.
    + apply start_gcc_iff in S. destruct (skipn (1 + List.length o) t) as [|c v].
      * exists []. split; [exact S|]. left. auto.
      * exists (c :: v). split; [exact S|]. right. repeat split. discriminate.
    + intros v G. apply given_gcc in G. congruence.
Qed.

(** One option with a value. *)
Lemma valued_run ms o canon t next a s : libs_arg cp p ms o canon t next = Some (a, s) ->
  exists v, given ms t o v /\ (v = [] /\ s = true /\ a = option_map (fun n => cleaned canon (strip_quotes n)) next \/
       v <> [] /\ s = false /\ a = Some (cleaned canon (strip_quotes v))).
Proof. intros E. pose proof (libs_arg_spec ms o canon t next) as H. now rewrite E in H. Qed.
Lemma valued_not ms o canon t next : libs_arg cp p ms o canon t next = None -> forall v, ~ given ms t o v.
Proof. intros E. pose proof (libs_arg_spec ms o canon t next) as H. now rewrite E in H. Qed.

Lemma stored_kept k v : stored k (Some v) = kept_if k v. Proof. destruct v; reflexivity. Qed.
Lemma dash_l_kept st v : [dash_l st v] = match v with ":"%char :: f => [DashFile f] | _ => [if st then DashStatic v else DashDyn v] end.
Proof. destruct v as [|c v]; [destruct st; reflexivity|]. destruct c as [[|] [|] [|] [|] [|] [|] [|] [|]], st; reflexivity. Qed.

Definition missing (ms : bool) (toks : list str) : Prop := value_missing cp p ms toks.
Lemma missing_cons ms t toks : missing ms toks -> missing ms (t :: toks).
Proof. intros (pre&u&o&f&->&I&G). exists (t :: pre), u, o, f. auto. Qed.

Definition answer (ms st : bool) (toks : list str) (r : option (list mention)) : Prop :=
  match r with Some m => reads cp p ms st toks m | None => missing ms toks end.
Lemma valued_any st ms o f : In (o, f) (valued cp p ms st) -> exists f', In (o, f') (valued cp p ms false).
Proof. destruct ms; [eauto|]. cbn. intros [E|[E|[]]]; injection E as <- _; eexists; [now left|right; now left]. Qed.

(** Using up the value. *)
Lemma answer_valued ms st t r o f canon k s a :
  In (o, f) (valued cp p ms st) -> libs_arg cp p ms o canon t (hd_error r) = Some (a, s) ->
  (forall v, k (Some (cleaned canon v)) = f v) ->
  (forall n, n < S (List.length r) -> forall toks : list str, List.length toks <= n -> Forall (fun t : str => t <> []) toks -> answer ms st toks (scan cp p ms st toks)) ->
  Forall (fun t : str => t <> []) r ->
  answer ms st (t :: r) (option_map (app (k a)) (if s then match r with _ :: r' => scan cp p ms st r' | [] => None end else scan cp p ms st r)).
Proof.
  intros I E K IH NE. apply valued_run in E. destruct E as (v&G&[(->&->&->)|(N&->&->)]).
  - destruct r as [|x r]; cbn [hd_error option_map].
    + cbn [answer option_map]. destruct (valued_any _ _ _ _ I) as (f'&I'). exists [], t, o, f'. auto.
    + rewrite K. inversion_clear NE as [|? ? _ NE']. cbn [List.length] in IH. specialize (IH (List.length r) ltac:(auto with arith) r (le_n _) NE').
      destruct (scan cp p ms st r) as [m|]; cbn [option_map answer] in *.
      * now apply rd_next with (o := o).
      * now apply missing_cons, missing_cons.
  - rewrite K. specialize (IH (List.length r) ltac:(auto with arith) r (le_n _) NE).
    destruct (scan cp p ms st r) as [m|]; cbn [option_map answer] in *.
    + now apply rd_here with (o := o).
    + now apply missing_cons.
Qed.
Lemma answer_rest ms st st' t r k : (forall m, reads cp p ms st' r m -> reads cp p ms st (t :: r) (k ++ m)) ->
  answer ms st' r (scan cp p ms st' r) -> answer ms st (t :: r) (option_map (app k) (scan cp p ms st' r)).
Proof. intros H A. destruct (scan cp p ms st' r); cbn [option_map answer] in *; [auto|now apply missing_cons]. Qed.

Lemma plain_spec st ms t r m : ~ starts_option ms t -> reads cp p ms st r m -> reads cp p ms st (t :: r) (plain_token t ++ m).
Proof.
  intros N R. unfold plain_token.
  assert (X : starts_with (L "%") t || starts_with (L "'%") t || starts_with (quote :: L "%") t = true <-> placeholder t).
  { rewrite !orb_true_iff, !starts_iff. unfold placeholder. split; [intros [[(x&E)|(x&E)]|(x&E)]; exists x; auto|intros (x&[E|[E|E]]); [left; left|left; right|right]; exists x; exact E]. }
  destruct (_ || _ || _).
  - apply rd_place; [exact N|now apply X|exact R].
  - apply (rd_input _ _ _ _ _ _ m); [exact N| |exact R]. rewrite <- X. discriminate.
Qed.
Lemma in_dynamic t : mem t dynamic_options = true <-> In t to_dynamic.
Proof. rewrite mem_iff. cbn. tauto. Qed.
Lemma in_static t : mem t static_options = true <-> In t to_static.
Proof. rewrite mem_iff. cbn. tauto. Qed.

Lemma scan_spec ms : forall n (toks : list str) st, List.length toks <= n -> Forall (fun t : str => t <> []) toks -> answer ms st toks (scan cp p ms st toks).
Proof.
  induction n as [n IHn] using lt_wf_ind. intros toks st LN NE. destruct toks as [|t r]; [constructor|].
  cbn [List.length] in LN. inversion_clear NE as [|? ? T NE'].
  assert (IH : forall st k, k < S (List.length r) -> forall toks : list str, List.length toks <= k -> Forall (fun t : str => t <> []) toks -> answer ms st toks (scan cp p ms st toks)).
  { intros st' k K toks KL KN. apply (IHn k); auto. lia. }
  clear IHn. pose proof (IH st (List.length r) ltac:(auto with arith) r (le_n _) NE') as IR.
  cbn [scan]. unfold step. destruct ms.
  - unfold step_msvc. destruct (is_larg t (L "NODEFAULTLIB")) eqn:E0.
    { apply is_larg_iff in E0. apply answer_rest; [|exact IR]. intros m R. now apply rd_none. }
    destruct (libs_arg cp p true (L "NODEFAULTLIB:") false t (hd_error r)) as [[a s]|] eqn:E1.
    { apply (answer_valued true st t r (L "NODEFAULTLIB:") (kept_if NoDefault) false (stored NoDefault) s a); [now left|exact E1|intros; apply stored_kept|apply IH|exact NE']. }
    destruct (libs_arg cp p true (L "DEFAULTLIB:") false t (hd_error r)) as [[a s]|] eqn:E2.
    { apply (answer_valued true st t r (L "DEFAULTLIB:") (kept_if Default) false (stored Default) s a); [right; now left|exact E2|intros; apply stored_kept|apply IH|exact NE']. }
    destruct (libs_arg cp p true (L "LIBPATH:") true t (hd_error r)) as [[a s]|] eqn:E3.
    { apply (answer_valued true st t r (L "LIBPATH:") (fun v => kept_if LibPath (match v with [] => [] | _ => ensure_trailing p (cp v) end)) true (stored LibPath) s a); [right; right; now left|exact E3| |apply IH|exact NE'].
      intros v. rewrite stored_kept. destruct v; reflexivity. }
    destruct (dash t) eqn:D.
    + apply answer_rest; [|exact IR]. intros m R. apply rd_option; auto.
      * apply dash_iff in D. destruct D as (d&x&[->| ->]&->); exists x; auto.
      * intros _ O. apply is_larg_iff in O. congruence.
      * cbn. intros o f v [X|[X|[X|[]]]]; injection X as <- _; [eapply valued_not in E1|eapply valued_not in E2|eapply valued_not in E3]; eassumption.
      * discriminate.
    + apply answer_rest; [|exact IR]. intros m R. apply plain_spec; [|exact R].
      intros (x&[->|[_ ->]]); discriminate D.
  - unfold step_gcc. destruct (libs_arg cp p false (L "L") false t (hd_error r)) as [[a s]|] eqn:E1.
    { apply (answer_valued false st t r (L "L") (kept_if LibPath) false (stored LibPath) s a); [now left|exact E1|intros; apply stored_kept|apply IH|exact NE']. }
    destruct (libs_arg cp p false (L "l") false t (hd_error r)) as [[a s]|] eqn:E2.
    { apply (answer_valued false st t r (L "l") (fun v => match v with ":"%char :: f => [DashFile f] | _ => [if st then DashStatic v else DashDyn v] end) false (fun a => [dash_l st (match a with Some v => v | None => [] end)]) s a); [right; now left|exact E2| |apply IH|exact NE'].
      intros v. cbn [cleaned andb]. apply dash_l_kept. }
    destruct (mem t dynamic_options) eqn:Y.
    { apply in_dynamic in Y. apply (answer_rest false st false t r []); [|apply (IH false (List.length r)); auto; lia]. intros m R. now apply rd_dynamic. }
    destruct (mem t static_options) eqn:Z.
    { apply in_static in Z. apply (answer_rest false st true t r []); [|apply (IH true (List.length r)); auto; lia]. intros m R. now apply rd_static. }
    destruct (starts_with (L "-") t) eqn:D.
    + apply answer_rest; [|exact IR]. intros m R. apply rd_option; auto.
      * apply starts_iff in D. destruct D as (x&->). exists x. auto.
      * discriminate.
      * cbn. intros o f v [X|[X|[]]]; injection X as <- _; [eapply valued_not in E1|eapply valued_not in E2]; eassumption.
      * intros _. rewrite <- in_dynamic, <- in_static. split; congruence.
    + apply answer_rest; [|exact IR]. intros m R. apply plain_spec; [|exact R].
      intros (x&[->|[X _]]); [|discriminate X]. assert (starts_with (L "-") ("-"%char :: x) = true) by (apply starts_iff; now exists x). congruence.
Qed.

(** ** Default libraries *)
Lemma erase_filter s l : NoDup (map lower l) -> erase_first s l = filter (fun x => negb (teq_i s x)) l.
Proof.
  induction l as [|x r IH]; intros ND; [reflexivity|]. cbn [map] in ND. inversion_clear ND as [|? ? N ND']. cbn [erase_first filter].
  destruct (teq_i s x) eqn:E; cbn [negb]; [|now rewrite IH]. apply teq_i_iff in E. clear IH ND'.
  induction r as [|y r IH]; [reflexivity|]. cbn [filter]. destruct (teq_i s y) eqn:F; cbn [negb].
  - apply teq_i_iff in F. exfalso. apply N. cbn [map]. left. congruence.
  - f_equal. apply IH. intros I. apply N. now right.
Qed.
Lemma nodup_filter (f : str -> bool) l : NoDup (map lower l) -> NoDup (map lower (filter f l)).
Proof.
  induction l as [|x r IH]; intros ND; [exact ND|]. cbn [map] in ND. inversion_clear ND as [|? ? N ND']. cbn [filter].
  destruct (f x); [|now apply IH]. cbn [map]. constructor; [|now apply IH]. intros I. apply N. apply in_map_iff in I.
  destruct I as (y&E&I). apply filter_In in I. rewrite <- E. apply in_map. tauto.
Qed.
Lemma filter_filter {A} (f g : A -> bool) l : filter f (filter g l) = filter (fun x => g x && f x) l.
Proof. induction l as [|x r IH]; [reflexivity|]. cbn [filter]. destruct (g x); cbn [filter andb]; [destruct (f x)|]; now rewrite IH. Qed.
Lemma erase_all ig : forall l, NoDup (map lower l) -> fold_left (fun l s => erase_first s l) ig l = filter (fun x => negb (existsb (fun s => teq_i s x) ig)) l.
Proof.
  induction ig as [|s ig IH]; intros l ND; cbn [fold_left existsb].
  - clear ND. induction l as [|x r IH]; [reflexivity|]. cbn [filter negb]. f_equal. exact IH.
  - rewrite erase_filter, IH by (try apply nodup_filter; assumption). rewrite filter_filter. apply filter_ext. intros x. now rewrite negb_orb.
Qed.
Lemma filter_keeps (Q : str -> Prop) (b : str -> bool) l : (forall x, b x = true <-> Q x) -> keeps_only Q l (filter b l).
Proof.
  intros H. induction l as [|x r IH]; [constructor|]. cbn [filter]. destruct (b x) eqn:E.
  - constructor; [now apply H|exact IH].
  - constructor; [|exact IH]. rewrite <- H. congruence.
Qed.
Lemma pick_defaults ms : pick get_default ms = m_defaults ms.
Proof. unfold pick, m_defaults, of_kind. apply flat_map_ext. intros []; reflexivity. Qed.
Lemma pick_ignored ms s : In s (pick get_ignored ms) <-> In (NoDefault s) ms.
Proof.
  unfold pick. rewrite in_flat_map. split.
  - intros (m&I&J). destruct m; cbn in J; try contradiction. destruct J as [<-|[]]. exact I.
  - intros I. exists (NoDefault s). split; [exact I|now left].
Qed.
Lemma defaults_spec ms : NoDup (map lower (m_defaults ms)) -> keeps_only (stays ms) (m_defaults ms) (defaults_left ms).
Proof.
  intros ND. unfold defaults_left. rewrite pick_defaults. destruct (existsb all_ignored ms) eqn:E.
  - assert (In NoDefaults ms). { apply existsb_exists in E. destruct E as (m&I&A). destruct m; try discriminate A. exact I. }
    clear ND. induction (m_defaults ms); constructor; [intros [N _]; contradiction|assumption].
  - rewrite erase_all by exact ND. apply filter_keeps. intros x. rewrite negb_true_iff. unfold stays. split.
    + intros B. split.
      * intros I. assert (existsb all_ignored ms = true) by (apply existsb_exists; now exists NoDefaults). congruence.
      * intros s I F. apply pick_ignored in I. assert (existsb (fun s => teq_i s x) (pick get_ignored ms) = true); [|congruence].
        apply existsb_exists. exists s. split; [exact I|now apply teq_i_iff].
    + intros [_ N]. clear E. destruct (existsb (fun s => teq_i s x) (pick get_ignored ms)) eqn:B; [|reflexivity]. apply existsb_exists in B. destruct B as (s&I&F).
      apply pick_ignored in I. apply teq_i_iff in F. now apply N in I.
Qed.

(** ** Searching *)
Variable disk : str -> bool.
Definition place (q : str * str) : str := cp (below p (fst q) (snd q)).
Lemma place_eq path lib : cp ((if teq path [] then [] else ensure_trailing p path) ++ lib) = place (path, lib).
Proof. unfold place. f_equal. cbn [fst snd]. destruct path; reflexivity. Qed.
Lemma node_named_spec g f : match node_named g f with
  | Some n => known_as g f n
  | None => Forall (fun m => lower (fst m) <> lower f) g end.
Proof.
  unfold node_named. induction g as [|m g IH]; [constructor|]. cbn [List.find]. destruct (teq_i (fst m) f) eqn:E.
  - apply teq_i_iff in E. exists [], g. auto.
  - apply teq_i_not in E. destruct (List.find _ g) as [n|].
    + destruct IH as (a&b&->&F&N). exists (m :: a), b. split; [reflexivity|]. split; [exact F|]. now constructor.
    + now constructor.
Qed.
Lemma finds_later g x places d g' : nothing_at g disk x -> finds disk g places d g' -> finds disk g (x :: places) d g'.
Proof.
  intros N F. destruct F as [places A|a f b d A K|a f b A K D].
  - apply fi_none. now constructor.
  - apply (fi_node disk g (x :: a)); [now constructor|exact K].
  - apply (fi_file disk g (x :: a)); [now constructor|exact K|exact D].
Qed.
Lemma at_places_spec g qs : match at_places cp p disk g qs with
  | Some (d, g') => finds disk g (map place qs) d g'
  | None => ends_badly disk g (map place qs) end.
Proof.
  induction qs as [|[path lib] qs IH]; cbn [at_places map]; [apply fi_none; constructor|].
  unfold at_path. rewrite place_eq. match goal with |- context [node_named g ?f] => pose proof (node_named_spec g f) as K; destruct (node_named g f) as [[d [|]]|] end.
  - now apply (fi_node disk g []).
  - exists [], (place (path, lib)), (map place qs), d. auto.
  - match goal with |- context [disk ?f] => destruct (disk f) eqn:D end.
    + now apply (fi_file disk g []).
    + assert (N : nothing_at g disk (place (path, lib))) by (split; assumption).
      destruct (at_places cp p disk g qs) as [[d g']|]; [now apply finds_later|].
      destruct IH as (a&f&b&d&E&A&B). exists (place (path, lib) :: a), f, b, d. rewrite E. split; [reflexivity|]. split; [now constructor|exact B].
Qed.
Lemma run_spec ss : forall g, match run_searches cp p disk g ss with
  | Some (ds, g') => finds_all disk g (map (map place) ss) ds g'
  | None => exists a s b ds g', map (map place) ss = a ++ s :: b /\ finds_all disk g a ds g' /\ ends_badly disk g' s end.
Proof.
  induction ss as [|s r IH]; intros g; cbn [run_searches map]; [constructor|].
  pose proof (at_places_spec g s) as A. destruct (at_places cp p disk g s) as [[d g']|].
  - specialize (IH g'). destruct (run_searches cp p disk g' r) as [[ds g'']|]; cbn [option_map fst snd].
    + econstructor; eassumption.
    + destruct IH as (a&s'&b&ds&g''&E&F&B). exists (map place s :: a), s', b, (d ++ ds), g''. rewrite E. split; [reflexivity|]. split; [|exact B].
      econstructor; eassumption.
  - exists [], (map place s), (map (map place) r), [], g. split; [reflexivity|]. split; [constructor|exact A].
Qed.
Lemma is_drive_iff l : is_drive l = true <-> drive_path l.
Proof.
  unfold is_drive, drive_path. rewrite andb_true_iff, Nat.ltb_lt, Ascii.eqb_eq. split.
  - intros [LN E]. destruct l as [|a [|c [|b r]]]; cbn [List.length] in LN; try lia. cbn [nth] in E. subst. now exists a, b, r.
  - intros (a&b&r&->). cbn [List.length nth]. split; [lia|reflexivity].
Qed.
Lemma dirs_eq env ms : pick get_path ms ++ env = dirs_of env ms.
Proof. unfold pick, dirs_of. f_equal. apply flat_map_ext. intros []; reflexivity. Qed.
Lemma along_eq dirs l : map place (map (fun q => (q, l)) dirs) = in_dirs cp p dirs l.
Proof. unfold in_dirs. rewrite map_map. reflexivity. Qed.
Lemma pairs_eq dirs l : map place (flat_map (fun q => [(q, so_name l); (q, a_name l)]) dirs) =
  flat_map (fun d => [cp (below p d (L "lib" ++ l ++ L ".so")); cp (below p d (L "lib" ++ l ++ L ".a"))]) dirs.
Proof. induction dirs as [|d r IH]; [reflexivity|]. cbn [flat_map map app]. rewrite IH. reflexivity. Qed.
Lemma searches_spec ms env mn : exists first,
  Forall2 (looks_at cp p (dirs_of env mn)) (m_inputs mn ++ defaults_left mn) first /\
  map (map place) (searches ms env mn) = first ++ if ms then [] else dash_places cp p (dirs_of env mn) mn.
Proof.
  unfold searches. rewrite dirs_eq. replace (pick get_input mn) with (m_inputs mn) by (unfold pick, m_inputs, of_kind; apply flat_map_ext; intros []; reflexivity).
  eexists. split.
  2: { rewrite map_app. f_equal. destruct ms; [reflexivity|]. unfold dash_places. rewrite !map_app, !map_map.
       f_equal; [|f_equal].
       - replace (pick get_dyn mn) with (m_dynamic mn) by (unfold pick, m_dynamic, of_kind; apply flat_map_ext; intros []; reflexivity).
         apply map_ext. intros. apply pairs_eq.
       - replace (pick get_static mn) with (m_static mn) by (unfold pick, m_static, of_kind; apply flat_map_ext; intros []; reflexivity).
         apply map_ext. intros. apply along_eq.
       - replace (pick get_file mn) with (m_files mn) by (unfold pick, m_files, of_kind; apply flat_map_ext; intros []; reflexivity).
         apply map_ext. intros. apply along_eq. }
  rewrite map_map. induction (m_inputs mn ++ defaults_left mn) as [|l r IH]; cbn [map]; constructor; [|exact IH].
  destruct (is_drive l) eqn:D.
  - apply is_drive_iff in D. cbn [map]. now apply la_drive.
  - rewrite along_eq. apply la_dirs. rewrite <- is_drive_iff. congruence.
Qed.
End Others.

(** ** .Libraries *)
Definition accepted (xs : list (str * lkind)) : list (str * bool) := map (fun x => (fst x, match snd x with KDll => true | _ => false end)) xs.
Fixpoint lweight (n : lnode) : nat :=
  match n with Leaf _ _ => 0 | Alias l => S ((fix all (l : list lnode) := match l with [] => 0 | d :: r => S (lweight d + all r) end) l) end.
Fixpoint lweights (l : list lnode) : nat := match l with [] => 0 | d :: r => S (lweight d + lweights r) end.
Definition depend_all := fix all (l : list lnode) (acc : list (str * bool)) {struct l} : option (list (str * bool)) :=
    match l with [] => Some acc | d :: r => match depend_on d acc with None => None | Some acc' => all r acc' end end.
Definition dep_answer (xs : list (str * lkind)) (acc : list (str * bool)) (r : option (list (str * bool))) : Prop :=
  match r with Some d => Forall (fun x => snd x <> KUnsupported) xs /\ d = acc ++ accepted xs | None => Exists (fun x => snd x = KUnsupported) xs end.
Lemma depend_spec : forall w,
  (forall n acc, lweight n <= w -> exists xs, stands_for n xs /\ dep_answer xs acc (depend_on n acc)) /\
  (forall l acc, lweights l <= w -> exists xs, stand_for l xs /\ dep_answer xs acc (depend_all l acc)).
Proof.
  induction w as [w IH] using lt_wf_ind.
  assert (A : forall n acc, lweight n <= w -> exists xs, stands_for n xs /\ dep_answer xs acc (depend_on n acc)).
  { intros n acc W. destruct n as [nm k|l].
    - exists [(nm, k)]. split; [constructor|]. destruct k; cbn [depend_on dep_answer];
        try (split; [now repeat constructor|reflexivity]). now constructor.
    - change (lweight (Alias l)) with (S (lweights l)) in W. destruct (IH (lweights l) ltac:(lia)) as [_ H].
      destruct (H l acc ltac:(lia)) as (xs&S&D). exists xs. split; [now constructor|exact D]. }
  split; [exact A|]. intros l acc W. destruct l as [|d r].
  - exists []. split; [constructor|]. split; [constructor|]. now rewrite app_nil_r.
  - cbn [lweights] in W. destruct (A d acc ltac:(lia)) as (xs&S&D). cbn [depend_all].
    destruct (depend_on d acc) as [acc'|]; cbn [dep_answer] in D.
    + destruct D as [D1 ->]. destruct (IH (lweights r) ltac:(lia)) as [_ H]. destruct (H r (acc ++ accepted xs) ltac:(lia)) as (ys&S'&D').
      exists (xs ++ ys). split; [now constructor|]. fold depend_all. destruct (depend_all r _) as [e|]; cbn [dep_answer] in *.
      * destruct D' as [D2 ->]. split; [now apply Forall_app|]. unfold accepted. now rewrite map_app, app_assoc.
      * apply Exists_app. now right.
    + destruct (IH (lweights r) ltac:(lia)) as [_ H]. destruct (H r [] ltac:(lia)) as (ys&S'&_).
      exists (xs ++ ys). split; [now constructor|]. apply Exists_app. now left.
Qed.

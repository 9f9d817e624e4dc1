(** C13: saving and loading the dependency database is lossless.  C14: a damaged or foreign database is rejected before
    its contents is interpreted.  C15: a crash while saving cannot corrupt the next build. *)
From Coq Require Import List Arith Bool NArith ZArith Lia.
From Verif Require Import M_Bytes M_Stream M_Codec M_Conf M_Db S_Db P_Db P_DbFile.
Import ListNotations.
Local Open Scope N_scope.

Section Db.
Variables (schema : N -> option rinfo) (h32 h64 : bytes -> N) (clean : bytes -> bytes) (same_path : bytes -> bytes -> bool) (rehash : bytes -> N).
(** h64 is a 64-bit hash; a path is the same as itself *)
Hypothesis h64_range : forall b, h64 b < 18446744073709551616.
Hypothesis same_refl : forall p, same_path p p = true.
Notation load_bytes := (load_bytes schema h32 h64 clean same_path rehash).
Notation load_file := (load_file schema h32 h64 clean same_path rehash).

(** The file made of the saved pages gives back the configuration part, and a graph with the same targets in the same
    order, the same names, types, stamps, build times, reflected members and dependency lists.  Whether the configuration
    must be parsed again is what the configuration part says (C16). *)
Theorem C13_save_load cont w reg alloc page stale path d g :
  real_db d -> real_graph schema rehash g -> small (clean path) -> 16 <= page < 4294967296 -> (forall i j : nat, alloc i = alloc j -> i = j) ->
  exists pages g',
    save_pages schema h64 clean page stale path d g = Some pages /\
    same_graph schema g g' /\
    load_bytes cont w reg alloc path (concat pages) =
      Some (let '(again, reg') := load h32 h64 w d reg in
            if again then REPARSE schema (refresh h64 w d) g' reg' else OK schema (refresh h64 w d) g' reg').
Proof.
  intros Hd Hg Hp HP AI. destruct (save_pages_ok schema h64 clean page stale path d g HP) as (pages&E&C).
  exists pages, (ren_graph schema stale alloc g). split; [exact E|]. split; [now apply (ren_same schema rehash)|]. rewrite C.
  apply (load_file_of schema h32 h64 clean same_path rehash cont w reg alloc stale path d g Hd Hg Hp (same_refl _) h64_range).
Qed.
(** A used file whose stamp and contents did not change keeps its entry: with an unchanged world nothing is refreshed. *)
Theorem C13_refresh_only_stamps w d :
  db_over (refresh h64 w d) = db_over d /\ db_env (refresh h64 w d) = db_env d /\ db_lib (refresh h64 w d) = db_lib d /\ db_fx (refresh h64 w d) = db_fx d /\
  Forall2 (fun u u' => fst (fst u') = fst (fst u) /\ snd u' = snd u /\
                       (snd (fst u') = snd (fst u) \/ snd (fst u') = w_stamp w (fst (fst u)) /\ exists c, w_file w (fst (fst u)) = Some c /\ h64 c = snd u))
    (db_used d) (db_used (refresh h64 w d)).
Proof.
  unfold refresh. cbn [db_over db_env db_lib db_fx db_used]. repeat (split; [reflexivity|]). induction (db_used d) as [|[[f st] h] l IH]; [constructor|].
  cbn [map]. constructor; [|exact IH]. destruct (w_stamp w f =? st); [cbn; auto|]. destruct (w_file w f) as [c|] eqn:E; [|cbn; auto].
  destruct (N.eqb_spec (h64 c) h); cbn; auto. split; [reflexivity|]. split; [reflexivity|]. right. split; [reflexivity|]. eauto.
Qed.

(** Every byte string without a good header is rejected, whatever follows the header, and without a memory error; the
    program then parses the configuration from scratch. *)
Theorem C14_bad_header cont w reg alloc path f : ~ header_ok h64 f ->
  exists r, load_bytes cont w reg alloc path f = Some r /\ (initialize schema cont r = FreshParse schema \/ initialize schema cont r = FreshParseKeepingCorrupt schema).
Proof.
  intros H. destruct (load_bad schema h32 h64 clean same_path rehash cont w reg alloc path f H) as [E|E]; rewrite E; eexists; (split; [reflexivity|]); cbn; auto.
Qed.
(** Which rejection it is. *)
Theorem C14_too_short cont w reg alloc path f : blen f < 16 -> load_bytes cont w reg alloc path f = Some (LOAD_ERROR schema).
Proof. apply load_short. Qed.
Theorem C14_foreign cont w reg alloc path f : 16 <= blen f -> firstn 3 f <> [78; 71; 68] -> load_bytes cont w reg alloc path f = Some (LOAD_ERROR schema).
Proof. apply load_id. Qed.
Theorem C14_other_version cont w reg alloc path f : 16 <= blen f -> firstn 3 f = [78; 71; 68] -> nth 3 f 0 <> 194 -> load_bytes cont w reg alloc path f = Some (MISSING_OR_INCOMPATIBLE schema).
Proof. apply load_version. Qed.
Theorem C14_wrong_hash cont w reg alloc path f : 16 <= blen f -> firstn 4 f = [78; 71; 68; 194] -> le_value (firstn 8 (skipn 8 f)) <> h64 (skipn 16 f) ->
  load_bytes cont w reg alloc path f = Some (LOAD_ERROR schema).
Proof. intros L I H. apply first4 in I. destruct I. now apply load_hash. Qed.
(** A truncated database is rejected, unless the truncated content has the same hash as the full one. *)
Theorem C14_truncated cont w reg alloc page stale path d g pages p q : 16 <= page < 4294967296 ->
  save_pages schema h64 clean page stale path d g = Some pages -> concat pages = p ++ q -> q <> [] ->
  load_bytes cont w reg alloc path p = Some (LOAD_ERROR schema) \/ collide h64 (skipn 16 p) (skipn 16 (concat pages)).
Proof.
  intros HP E C NE. destruct (save_pages_ok schema h64 clean page stale path d g HP) as (pages'&E'&C'). assert (pages' = pages) by congruence. subst pages'.
  unfold file_of in C'. set (B := body schema clean stale path d g) in *. destruct (N.lt_ge_cases (blen p) 16) as [L|L]; [left; now apply load_short|].
  assert (P : p = header (h64 B) ++ skipn 16 p /\ B = skipn 16 p ++ q).
  { rewrite C in C'. assert (F : firstn 16 p = header (h64 B)).
    { assert (X : firstn 16 (p ++ q) = firstn 16 (header (h64 B) ++ B)) by now rewrite C'. rewrite (firstn_app_exact (header (h64 B))) in X by apply header_len.
      rewrite firstn_app in X. replace (16 - List.length p)%nat with 0%nat in X by (unfold blen in L; lia). cbn [firstn] in X. rewrite app_nil_r in X. exact X. }
    split; [rewrite <- F; symmetry; apply firstn_skipn|]. assert (X : skipn 16 (p ++ q) = skipn 16 (header (h64 B) ++ B)) by now rewrite C'.
    rewrite (skipn_app_exact (header (h64 B))) in X by apply header_len. rewrite skipn_app in X. replace (16 - List.length p)%nat with 0%nat in X by (unfold blen in L; lia). symmetry. exact X. }
  destruct P as (P&Q). replace (skipn 16 (concat pages)) with B by (rewrite C'; symmetry; apply skipn_app_exact, header_len).
  destruct (N.eq_dec (h64 (skipn 16 p)) (h64 B)) as [H|H].
  - right. split; [|exact H]. intros X. rewrite <- X in Q. apply NE. apply (f_equal (@List.length N)) in Q. rewrite app_length in Q. destruct q; [reflexivity|cbn in Q; lia].
  - left. apply load_hash; [exact L| | |].
    + rewrite P. reflexivity.
    + rewrite P. reflexivity.
    + remember (skipn 16 p) as t eqn:Et. rewrite P. unfold header. cbn [app skipn]. rewrite firstn_app_exact by apply le_bytes_len. rewrite M_Bytes.le_value_u64 by apply h64_range. congruence.
Qed.
(** A database whose content was altered in any way behind its header is rejected, unless the hashes collide. *)
Theorem C14_altered cont w reg alloc page stale path d g pages c : 16 <= page < 4294967296 ->
  save_pages schema h64 clean page stale path d g = Some pages -> c <> skipn 16 (concat pages) ->
  load_bytes cont w reg alloc path (firstn 16 (concat pages) ++ c) = Some (LOAD_ERROR schema) \/ collide h64 c (skipn 16 (concat pages)).
Proof.
  intros HP E NE. destruct (save_pages_ok schema h64 clean page stale path d g HP) as (pages'&E'&C). assert (pages' = pages) by congruence. subst pages'.
  unfold file_of in C. set (B := body schema clean stale path d g) in *. rewrite C in *.
  rewrite (skipn_app_exact (header (h64 B)) B) in * by apply header_len. rewrite (firstn_app_exact (header (h64 B)) B) by apply header_len.
  destruct (N.eq_dec (h64 c) (h64 B)) as [H|H]; [right; split; auto|]. left. apply C14_wrong_hash.
  - unfold blen. rewrite app_length, header_len. lia.
  - reflexivity.
  - rewrite (skipn_app_exact (header (h64 B)) c 16) by apply header_len. unfold header. cbn [app skipn]. rewrite firstn_app_exact by apply le_bytes_len. rewrite M_Bytes.le_value_u64 by apply h64_range. congruence.
Qed.
(** A database saved for another place is not used: the build stops, or parses from scratch if the user asked for that. *)
Theorem C14_moved cont w reg alloc page stale path path' d g pages : 16 <= page < 4294967296 -> small (clean path) ->
  save_pages schema h64 clean page stale path d g = Some pages -> same_path (clean path) (clean path') = false ->
  exists r, load_bytes cont w reg alloc path' (concat pages) = Some r /\ initialize schema cont r = if cont then FreshParse schema else Fatal schema.
Proof.
  intros HP SM E M. destruct (save_pages_ok schema h64 clean page stale path d g HP) as (pages'&E'&C). assert (pages' = pages) by congruence. subst pages'. rewrite C.
  unfold file_of. set (B := body schema clean stale path d g). exists (if cont then MISSING_OR_INCOMPATIBLE schema else LOAD_ERROR_MOVED schema). split; [|destruct cont; reflexivity].
  unfold M_Db.load_bytes.
  pose proof (proj1 (P_Codec.c_raw (header (h64 B))) (ks_new (header (h64 B) ++ B)) B (P_Stream.views_new _)) as (s&Es&V).
  replace (blen (header (h64 B))) with HEADER in Es by (unfold blen; rewrite header_len; reflexivity). rewrite Es.
  change (M_Conf.beq (firstn 3 (header (h64 B))) [78; 71; 68]) with true. cbn [negb]. change (nth 3 (header (h64 B)) 0 =? VERSION) with true. cbn [negb].
  rewrite (skipn_app_exact (header (h64 B)) B) by (rewrite header_len; reflexivity).
  change (skipn 8 (header (h64 B))) with (le_bytes 8 (h64 B)). rewrite le_value_u64 by apply h64_range. rewrite N.eqb_refl. cbn [negb].
  unfold B, body in V. destruct (d_str (clean path) SM s _ V) as (s1&E1&_). rewrite E1, M. reflexivity.
Qed.

(** The process is killed after any number of bytes were written over the old database (or over nothing): the next start
    sees exactly the old file, exactly the new one, or a damaged one and parses from scratch.  The only exception is a
    mixture of the two contents that has the same 64-bit hash as the new content. *)
Theorem C15_crash page stale stale' path path' d d' g g' pages old n : 16 <= page < 4294967296 ->
  save_pages schema h64 clean page stale path d g = Some pages ->
  (old = None \/ exists page' pages', 16 <= page' < 4294967296 /\ save_pages schema h64 clean page' stale' path' d' g' = Some pages' /\ old = Some (concat pages')) ->
  let f := file_after old pages n in
  old = Some f \/ f = concat pages \/
  (forall cont w reg alloc p, load_file cont w reg alloc p (Some f) = Some (LOAD_ERROR schema)) \/
  (exists k, collide h64 (firstn k (skipn 16 (concat pages)) ++ skipn k (skipn 16 (match old with Some o => o | None => [] end))) (skipn 16 (concat pages))).
Proof.
  intros HP E O f. destruct (save_pages_ok schema h64 clean page stale path d g HP) as (pgs&E'&C). assert (pgs = pages) by congruence. subst pgs.
  set (nb := body schema clean stale path d g) in *. change (concat pages = whole h64 nb) in C.
  assert (LE : forall x, ~ header_ok h64 x -> firstn 4 x = [78; 71; 68; 194] \/ blen x < 16 -> forall cont w reg alloc p, load_file cont w reg alloc p (Some x) = Some (LOAD_ERROR schema)).
  { intros x H [X|X] cont w reg alloc p; [|now apply load_short]. destruct (N.lt_ge_cases (blen x) 16) as [L|L]; [now apply load_short|]. apply C14_wrong_hash; auto.
    intros Y. apply H. split; auto. }
  destruct (le_lt_dec n (List.length (concat pages))) as [L|L]; [|right; left; now apply file_after_all].
  pose proof (file_after_cut old pages n L) as F. fold f in F. rewrite C in F |- *. rewrite whole_skip. destruct O as [-> |(page'&pages'&HP'&E2&->)].
  - rewrite skipn_nil, app_nil_r in F. destruct (torn_new h64 h64_range nb n) as [T|[T|T]]; rewrite <- ?F in T.
    + right. left. exact T.
    + right. right. left. apply LE; [exact T|]. destruct (le_lt_dec 16 n) as [N16|N16].
      * left. rewrite F, firstn_firstn. replace (Nat.min 4 n) with 4%nat by lia. reflexivity.
      * right. rewrite F. unfold blen. rewrite firstn_length. lia.
    + right. right. right. exists (n - 16)%nat. cbn [skipn]. rewrite skipn_nil, app_nil_r. exact T.
  - destruct (save_pages_ok schema h64 clean page' stale' path' d' g' HP') as (pgs&E3&C2). assert (pgs = pages') by congruence. subst pgs.
    set (ob := body schema clean stale' path' d' g') in *. change (concat pages' = whole h64 ob) in C2. rewrite C2 in F |- *. rewrite whole_skip.
    destruct (torn_two h64 h64_range nb ob n) as [T|[T|[T|T]]]; unfold splice in T; rewrite <- ?F in T.
    + left. now rewrite T.
    + right. left. exact T.
    + right. right. left. apply LE; [exact T|]. left. change (firstn n (whole h64 nb) ++ skipn n (whole h64 ob)) with (splice n (whole h64 nb) (whole h64 ob)) in F. rewrite F, splice_whole. reflexivity.
    + right. right. right. exists (n - 16)%nat. exact T.
Qed.
(** What the next start goes on with: the graph of the old database, the graph of the new one, or a fresh parse. *)
Theorem C15_next_start page stale stale' path path' d d' g g' pages old n cont w reg alloc p : 16 <= page < 4294967296 ->
  save_pages schema h64 clean page stale path d g = Some pages ->
  (old = None \/ exists page' pages', 16 <= page' < 4294967296 /\ save_pages schema h64 clean page' stale' path' d' g' = Some pages' /\ old = Some (concat pages')) ->
  (forall k, ~ collide h64 (firstn k (skipn 16 (concat pages)) ++ skipn k (skipn 16 (match old with Some o => o | None => [] end))) (skipn 16 (concat pages))) ->
  let next := option_map (initialize schema cont) (load_file cont w reg alloc p (Some (file_after old pages n))) in
  next = option_map (initialize schema cont) (load_file cont w reg alloc p old) \/
  next = option_map (initialize schema cont) (load_file cont w reg alloc p (Some (concat pages))) \/
  next = Some (FreshParseKeepingCorrupt schema).
Proof.
  intros HP E O NC next. destruct (C15_crash page stale stale' path path' d d' g g' pages old n HP E O) as [H|[H|[H|(k&H)]]].
  - left. unfold next. now rewrite <- H.
  - right. left. unfold next. now rewrite H.
  - right. right. unfold next. now rewrite H.
  - destruct (NC k H).
Qed.
(** When the save completes nothing of the old file is left. *)
Theorem C15_complete old pages n : (List.length (concat pages) < n)%nat -> file_after old pages n = concat pages.
Proof. apply file_after_all. Qed.
(** Finding: the version number is written before the rest.  If the old database is of another version (with the same
    header layout and a valid content hash), being killed after four to eight bytes leaves a file that is read as a
    database of the present version, although its contents are of the other version. *)
Theorem C15_other_version_refuted page stale path d g pages : 16 <= page < 4294967296 -> save_pages schema h64 clean page stale path d g = Some pages ->
  forall contents : bytes,
  let old := [78; 71; 68; 193; 0; 0; 0; 0] ++ le_bytes 8 (h64 contents) ++ contents in
  let f := file_after (Some old) pages 4 in
  (forall cont w reg alloc p, load_bytes cont w reg alloc p old = Some (MISSING_OR_INCOMPATIBLE schema)) /\ header_ok h64 f /\ skipn 16 f = contents.
Proof.
  intros HP E contents old f. destruct (save_pages_ok schema h64 clean page stale path d g HP) as (pgs&E'&C). assert (pgs = pages) by congruence. subst pgs.
  assert (LO : List.length old = (16 + List.length contents)%nat) by (unfold old; rewrite !app_length, le_bytes_len; cbn [List.length]; lia). split.
  { intros. apply load_version; [unfold blen; lia|reflexivity|discriminate]. }
  assert (F : f = [78; 71; 68; 194; 0; 0; 0; 0] ++ le_bytes 8 (h64 contents) ++ contents).
  { unfold f. rewrite file_after_cut; [rewrite C; reflexivity|]. rewrite C. unfold file_of. rewrite app_length, header_len. lia. }
  assert (S : skipn 16 f = contents).
  { rewrite F, app_assoc. apply skipn_app_exact. rewrite app_length, le_bytes_len. reflexivity. }
  split; [|exact S]. unfold header_ok. rewrite S. rewrite F. split; [unfold blen; rewrite !app_length, le_bytes_len; cbn [List.length]; lia|]. split; [reflexivity|].
  cbn [app skipn]. rewrite firstn_app_exact by apply le_bytes_len. apply le_value_u64, h64_range.
Qed.
End Db.
Print Assumptions C13_save_load.
Print Assumptions C13_refresh_only_stamps.
Print Assumptions C14_bad_header.
Print Assumptions C14_too_short.
Print Assumptions C14_foreign.
Print Assumptions C14_other_version.
Print Assumptions C14_wrong_hash.
Print Assumptions C14_truncated.
Print Assumptions C14_altered.
Print Assumptions C14_moved.
Print Assumptions C15_crash.
Print Assumptions C15_next_start.
Print Assumptions C15_complete.
Print Assumptions C15_other_version_refuted.

(** ** A concrete database: a settings node, a source file, and an object with members of several types, a pointer to the
    source file and one to itself as a dependency list. *)
Definition ex_h (b : bytes) : N := fold_left (fun a x => (a * 31 + x + 7) mod 18446744073709551616) b 5.
Definition ex_schema (ty : N) : option rinfo :=
  if ty =? 20 then Some (RProp TStrs REnd)
  else if ty =? 6 then Some (RProp TNode (RProp (TStructs (RProp TStr (RProp TI32 REnd))) (RSuper (RProp TBool (RProp TU64 REnd)))))
  else None.
Definition ex_settings : node ex_schema := mkN ex_schema settings_name (ex_h settings_name mod 4294967296) (existT (props ex_schema) 20 ([[80; 61; 49]], tt)) 1 0 [] [] [].
Definition ex_file : node ex_schema := mkN ex_schema [97; 46; 99] (ex_h [97; 46; 99] mod 4294967296) (existT (props ex_schema) 4 tt) 0 0 [] [] [].
Definition ex_obj : node ex_schema :=
  mkN ex_schema [97; 46; 111] (ex_h [97; 46; 111] mod 4294967296)
    (existT (props ex_schema) 6 (Some 4096, ([([68], ((-3)%Z, tt)); ([], (7%Z, tt))], (true, (81985529216486895, tt)))))
    1234567890123 42 [] [mkD 4096 99 false; mkD 7 1 true] [mkD 4096 98 false].
Definition ex_g : graph ex_schema := [(7, ex_settings); (4096, ex_file); (24, ex_obj)].
Definition ex_d : db := mkDB [([102], 5, 6)] (Some ([65; 61; 49; 0; 0], [])) [([72; 79; 77; 69], 12)] 34 [([120], true); ([121], false)].
Example C13_case : real_graph ex_schema (fun b => ex_h b mod 4294967296) ex_g /\ real_db ex_d.
Proof.
  split.
  - split; [repeat constructor; cbn; intuition discriminate|]. split; [reflexivity|]. split.
    + unfold ex_g. repeat match goal with
        | |- Forall _ _ => constructor
        | |- fits_node _ _ _ _ => unfold fits_node
        | |- fits_deps _ _ => unfold fits_deps
        | |- fits_members _ _ _ _ => cbn
        | |- _ /\ _ => split
        | |- True => exact I
        | |- small _ => reflexivity
        | |- _ = _ => reflexivity
        | |- _ < _ => reflexivity
        | |- In _ _ => cbn; tauto
        | |- _ \/ _ => cbn; tauto
        | |- (_ <= _)%Z => cbn; lia
        | |- (_ < _)%Z => cbn; lia
        end.
    + exists (7, ex_settings). cbn. auto.
  - unfold real_db, small. cbn. repeat split; repeat constructor; cbn; try lia; discriminate.
Qed.
(** The same database through pages of 32 bytes, seen by a world in which the used file changed. *)
Definition ex_world : world := mkW (fun _ => None) (fun _ => 0) (fun _ => None) (fun _ => false).
Example C13_run : exists pages, save_pages ex_schema ex_h (fun p => p) 32 (fun _ => 0) [68; 66] ex_d ex_g = Some pages /\ (5 < List.length pages)%nat /\
  match load_bytes ex_schema ex_h ex_h (fun p => p) beq (fun b => ex_h b mod 4294967296) false ex_world [] (fun i => N.of_nat i + 100) [68; 66] (concat pages) with
  | Some (REPARSE _ _ [(100, s); (101, f); (102, o)] _) => n_name _ o = [97; 46; 111] /\ n_static _ o = [mkD 101 99 false; mkD 100 1 true] /\ n_stamp _ o = 1234567890123
  | _ => False
  end.
Proof. eexists. split; [vm_compute; reflexivity|]. vm_compute. repeat split; lia. Qed.
(** Damaging one byte of it is noticed; cutting it is noticed. *)
Example C14_case : forall pages, save_pages ex_schema ex_h (fun p => p) 32 (fun _ => 0) [68; 66] ex_d ex_g = Some pages ->
  load_bytes ex_schema ex_h ex_h (fun p => p) beq (fun b => ex_h b mod 4294967296) false ex_world [] (fun i => N.of_nat i + 100) [68; 66] (firstn 100 (concat pages)) = Some (LOAD_ERROR ex_schema) /\
  load_bytes ex_schema ex_h ex_h (fun p => p) beq (fun b => ex_h b mod 4294967296) false ex_world [] (fun i => N.of_nat i + 100) [68; 66] (firstn 40 (concat pages) ++ 1 :: skipn 41 (concat pages)) = Some (LOAD_ERROR ex_schema).
Proof. intros pages E. vm_compute in E. injection E as <-. split; vm_compute; reflexivity. Qed.
(** A crash in the middle of writing it over an empty database. *)
Example C15_case : forall pages pages', save_pages ex_schema ex_h (fun p => p) 32 (fun _ => 0) [68; 66] ex_d ex_g = Some pages ->
  save_pages ex_schema ex_h (fun p => p) 32 (fun _ => 0) [68; 66] ex_d [(7, ex_settings)] = Some pages' ->
  let f := file_after (Some (concat pages')) pages 60 in
  f <> concat pages /\ f <> concat pages' /\
  load_bytes ex_schema ex_h ex_h (fun p => p) beq (fun b => ex_h b mod 4294967296) false ex_world [] (fun i => N.of_nat i + 100) [68; 66] f = Some (LOAD_ERROR ex_schema).
Proof. intros pages pages' E E'. vm_compute in E, E'. injection E as <-. injection E' as <-. vm_compute. split; [discriminate|]. split; [discriminate|]. reflexivity. Qed.

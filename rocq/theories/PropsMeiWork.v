(** Properties of titles, numbers and related works in the head of MEI files: C154 and
    C155.  The words of the statements ([with_lang], [known], …) are at the top of
    MeiWorkProofs.v. *)
From Coq Require Import List Ascii String Arith NArith ZArith Lia Bool Permutation.
From Verif Require Import PyStr PyStrProofs LayoutModel LayoutProofs ClefModel LyricProofs2 MeiTextModel MeiIdsModel MeiStyleModel PropsMeiText PropsMeiStyle MeiWorkModel MeiWorkProofs.
Import ListNotations.

Lemma text_eq_eq a b : text_eq a b = true <-> a = b.
Proof.
  unfold text_eq. rewrite andb_true_iff, same_eq. destruct a as [d l t], b as [d' l' t']. cbn [v_data v_lang v_trans]. split.
  - intros (H & T). apply Bool.eqb_prop in T. congruence.
  - intro H. injection H as -> -> ->. split; [reflexivity|apply Bool.eqb_reflx].
Qed.
Lemma parted_length l : length (original l ++ translated l) = length l.
Proof. symmetry. apply Permutation_length, parted. Qed.
Lemma parted_one l (v : mtext) : original l ++ translated l = [v] -> l = [v].
Proof.
  intro H. pose proof (parted v_trans l) as P. fold (original l) in P. fold (translated l) in P. rewrite H in P. apply Permutation_sym in P. apply Permutation_length_1_inv in P. exact P.
Qed.

Section C154.
Context (glyph_num glyph_name : str -> str) (std : str -> bool) (std_name : str -> str).
(** Writing the head and reading it again. *)
Definition round (lay : str) (md : metadata) : option metadata :=
  read_head glyph_num glyph_name std std_name (simpleTitle lay md) (workList lay md).

Lemma round_values lay md : std [] = false -> lay = [] \/ layout lay -> known md ->
  exists out, round lay md = Some out
  /\ let file := processTitle glyph_num glyph_name std std_name [] [] (simpleTitle lay md) in
     let titles := match back std_name md (S_ "title") with [] => values (S_ "title") file | t => t end in
     (forall p, p <> S_ "title" -> values p out = back std_name md p)
     /\ values (S_ "title") out = match titles, back std_name md (S_ "movementName") with [t], [m] => if text_eq t m then [] else titles | _, _ => titles end.
Proof.
  intros S L K. destruct (works_read glyph_num glyph_name std std_name lay md L K) as (extra & I & E). unfold round, read_head. rewrite E. eexists. split; [reflexivity|].
  cbv zeta. destruct (combine_values (processTitle glyph_num glyph_name std std_name [] [] (simpleTitle lay md)) (fold_left (add std_name) (head_adds md ++ work_adds md ++ extra) [])
    (file_titles glyph_num glyph_name std std_name lay md S)) as (A & B). split.
  - intros p N. rewrite (A p N). apply (values_work glyph_num glyph_name std std_name). exact I.
  - rewrite B. rewrite !(values_work glyph_num glyph_name std std_name _ _ _ extra I). reflexivity.
Qed.

Theorem C154_titles_partial : forall lay md, std [] = false -> lay = [] \/ layout lay -> known md ->
  (forall p, differ (values p md)) ->
  (forall p, In p (map S_ ["parentTitle"; "groupTitle"; "associatedWork"; "collectionDesignation"; "scholarlyCatalogAbbreviation"; "scholarlyCatalogName"; "opusNumber"]%string) -> differ_words (values p md)) ->
  Forall (fun v => small_lang v = None) (values (S_ "opusNumber") md) ->
  exists out, round lay md = Some out
  /\ (forall p, In p (map S_ ["movementName"; "number"; "movementNumber"; "actNumber"; "sceneNumber"]%string) ->
        values p out = map with_lang (original (values p md) ++ translated (values p md)))
  /\ (forall p, In p (map S_ ["alternativeTitle"; "popularTitle"]%string) -> values p out = map with_lang (values p md))
  /\ (forall p, In p (map S_ ["parentTitle"; "groupTitle"; "associatedWork"; "collectionDesignation"; "scholarlyCatalogAbbreviation"; "scholarlyCatalogName"; "opusNumber"]%string) ->
        values p out = map without_lang (values p md))
  /\ (values (S_ "title") md <> [] ->
      ~ (exists t m, values (S_ "title") md = [t] /\ values (S_ "movementName") md = [m] /\ with_both t = with_lang m) ->
      values (S_ "title") out = map with_both (original (values (S_ "title") md) ++ translated (values (S_ "title") md)))
  /\ (values (S_ "title") md = [] -> length (values (S_ "movementName") md) <= 1 -> values (S_ "title") out = []).
Proof.
  intros lay md S L K D W O. destruct (round_values lay md S L K) as (out & E & A & B). exists out. split; [exact E|]. cbv zeta in A, B.
  assert (NT : forall p ps, In p (map S_ ps) -> existsb (fun x => str_eqb (S_ x) (S_ "title")) ps = false -> p <> S_ "title").
  { intros p ps I F ->. apply in_map_iff in I. destruct I as (x & X & I). assert (Y : existsb (fun x => str_eqb (S_ x) (S_ "title")) ps = true); [|congruence].
    apply existsb_exists. exists x. split; [exact I|]. rewrite X. apply str_eqb_refl. }
  repeat match goal with |- _ /\ _ => split end.
  - intros p I. rewrite A by (eapply NT; [exact I|reflexivity]). apply back_parts; [exact K|exact I|apply D].
  - intros p I. rewrite A by (eapply NT; [exact I|reflexivity]). apply back_others; [exact K|exact I|apply D].
  - intros p I. rewrite A by (eapply NT; [exact I|reflexivity]). pose proof (W p I) as Wp. cbn [map In] in I.
    destruct I as [H|[H|[H|[H|[H|[H|[H|[]]]]]]]]; try (apply back_words; [exact K|rewrite <- H; cbn [map In]; tauto|exact Wp]).
    rewrite <- H in *. apply back_opus; assumption.
  - intros N X. rewrite (back_title std_name md K (D _)) in B. rewrite (back_parts std_name md (S_ "movementName") K (or_introl eq_refl) (D _)) in B.
    rewrite B. clear B A. pose proof (parted_length (values (S_ "title") md)) as PL.
    destruct (original (values (S_ "title") md) ++ translated (values (S_ "title") md)) as [|t [|t2 ts]] eqn:ET.
    + exfalso. apply N. apply length_zero_iff_nil. rewrite <- PL. reflexivity.
    + cbn [map]. destruct (original (values (S_ "movementName") md) ++ translated (values (S_ "movementName") md)) as [|m [|m2 ms]] eqn:EM; try reflexivity.
      cbn [map]. destruct (text_eq (with_both t) (with_lang m)) eqn:Q; [|reflexivity]. apply text_eq_eq in Q. exfalso. apply X. exists t, m. repeat split; [apply parted_one; exact ET|apply parted_one; exact EM|exact Q].
    + reflexivity.
  - intros Z Len. rewrite (back_title std_name md K (D _)) in B. rewrite Z in B. cbn [original translated filter app map] in B.
    rewrite (back_parts std_name md (S_ "movementName") K (or_introl eq_refl) (D _)) in B. rewrite B. clear A B.
    assert (SO : contents "OTL" md = []) by (rewrite (known_contents md _ (S_ "title") K); [exact Z|left; reflexivity]).
    assert (SM : contents "OMD" md = values (S_ "movementName") md) by (apply known_contents; [exact K|cbn; tauto]).
    pose proof (known_texts md K "OMD"%string) as T. rewrite SM in T.
    unfold simpleTitle. cbv zeta. rewrite SO, SM. cbn [bestName find hd_error].
    destruct (values (S_ "movementName") md) as [|m [|m2 ms]]; [|clear Len|cbn [length] in Len; lia].
    + change (bestName [] []) with (@None mtext). cbv iota. change (leaf lay "title" [] []) with (leaf lay "title" (attr_if (S_ "xml:lang") []) []). rewrite read_simple by exact S. reflexivity.
    + inversion T as [|? ? Tm _].
      assert (BN : bestName [m] [] = Some m) by (unfold bestName; cbn [find]; destruct (negb (v_trans m)); reflexivity). rewrite BN.
      rewrite read_simple by exact S. rewrite keep_trimmed by exact Tm. rewrite strip_trimmed by exact Tm.
      assert (OM : original [m] ++ translated [m] = [m]) by (unfold original, translated; cbn [filter]; destruct (v_trans m); reflexivity). rewrite OM. cbn [map].
      destruct (v_data m) as [|c s] eqn:DM; [reflexivity|]. rewrite values_one. change (str_eqb (S_ "title") (S_ "title")) with true. cbv iota.
      assert (Q : MText (c :: s) (match lower (lang_of m) with [] => None | _ => Some (lower (lang_of m)) end) false = with_lang m).
      { unfold with_lang, small_lang, lang_of. rewrite DM. destruct (v_lang m) as [[|y ys]|]; reflexivity. }
      rewrite Q. assert (Q2 : text_eq (with_lang m) (with_lang m) = true) by (apply text_eq_eq; reflexivity). rewrite Q2. reflexivity.
Qed.
(** Titles that other programs write with a type and no key. *)
Definition typed : list (string * string) :=
  [("main", "title"); ("uniform", "title"); ("translated", "title"); ("subordinate", "title"); ("alternative", "alternativeTitle"); ("popular", "popularTitle");
   ("movementName", "movementName"); ("number", "number"); ("movementNumber", "movementNumber"); ("opusNumber", "opusNumber"); ("actNumber", "actNumber"); ("sceneNumber", "sceneNumber")]%string.
Lemma one_title md e t k tail a : e = El (S_ "title") a t [] tail -> trimmed t -> assoc_str (S_ "xml:lang") a = None -> title_key std [] a = Some k ->
  processTitle glyph_num glyph_name std std_name [] md e = add std_name md (k, MText t None (str_eqb (x_get (S_ "type") a) (S_ "translated"))).
Proof.
  intros -> T L K. unfold processTitle. cbn [x_subs filter fold_left].
  match goal with |- (let (_, _) := ?x in _) = _ => transitivity (snd x); [destruct x; reflexivity|] end.
  rewrite plain_text by exact T. rewrite (read_text std std_name [] [] (El (S_ "title") a t [] tail) md t k T K). cbv zeta. cbn [x_attrs]. rewrite L. reflexivity.
Qed.
Theorem C154_typed : forall type prop t tail, std [] = false -> trimmed t -> In (type, prop) typed ->
  processTitle glyph_num glyph_name std std_name [] [] (El (S_ "title") [(S_ "type", S_ type)] t [] tail) = [(S_ prop, MText t None (str_eqb (S_ type) (S_ "translated")))].
Proof.
  intros type prop t tail S T I. unfold typed in I.
  repeat (destruct I as [I|I]; [injection I as <- <-; erewrite one_title; [|reflexivity|exact T|reflexivity|unfold title_key, usable; change (x_get (S_ "analog") [(S_ "type", _)]) with (@nil ascii); rewrite S; vm_compute; reflexivity]; reflexivity|]). destruct I.
Qed.
Theorem C154_typed_popular : forall t tail, std [] = false -> trimmed t ->
  processTitle glyph_num glyph_name std std_name [] [] (El (S_ "title") [(S_ "type", S_ "alternative"); (S_ "label", S_ "popular")] t [] tail) = [(S_ "popularTitle", MText t None false)].
Proof.
  intros t tail S T. erewrite one_title; [|reflexivity|exact T|reflexivity|unfold title_key, usable; change (x_get (S_ "analog") [(S_ "type", S_ "alternative"); (S_ "label", S_ "popular")]) with (@nil ascii); rewrite S; vm_compute; reflexivity]. reflexivity.
Qed.
(** A title with another key of Humdrum is kept under that key. *)
Theorem C154_custom_kept : forall k t tail, trimmed t ->
  ~ In k (map S_ ["OTL"; "OTP"; "OTA"; "OPR"; "OAC"; "OSC"; "OMV"; "OMD"; "OPS"; "ONM"; "GTL"; "GAW"; "GCO"; "SCT"; "SCA"]%string) ->
  processTitle glyph_num glyph_name std std_name [] [] (El (S_ "title") [(S_ "analog", humdrum ++ k)] t [] tail) = [(humdrum ++ k, MText t None false)].
Proof.
  intros k t tail T N. assert (A : assoc_str k ref_names = None).
  { destruct (assoc_str k ref_names) as [v|] eqn:E; [|reflexivity]. exfalso. apply N. clear N. revert E. unfold ref_names. cbn [assoc_str].
    repeat match goal with |- context [str_eqb k ?x] => let E := fresh "E" in destruct (str_eqb k x) eqn:E; [apply str_eqb_eq in E; subst k; intros _; cbn; tauto|] end. discriminate. }
  assert (H : starts_with humdrum (humdrum ++ k) = true) by reflexivity.
  rewrite (one_title [] _ t (humdrum ++ k) tail [(S_ "analog", humdrum ++ k)] eq_refl T eq_refl).
  - unfold add. cbn [fst snd]. unfold name_of. rewrite H. change (skipn 8 (humdrum ++ k)) with k. rewrite A. reflexivity.
  - unfold title_key. change (x_get (S_ "analog") [(S_ "analog", humdrum ++ k)]) with (humdrum ++ k). unfold usable. rewrite H. reflexivity.
Qed.
End C154.
Print Assumptions C154_custom_kept.
Print Assumptions C154_typed.
Print Assumptions C154_typed_popular.
Print Assumptions C154_titles_partial.
Definition g0 (_ : str) : str := [].
Definition s0 (_ : str) : bool := false.
Definition plain (d : string) : mtext := MText (S_ d) None false.
Definition in_lang (d l : string) (t : bool) : mtext := MText (S_ d) (Some (S_ l)) t.
Definition an_opera : metadata :=
  [(S_ "title", in_lang "Die Zauberfloete" "de" false); (S_ "title", in_lang "The Magic Flute" "en" true); (S_ "popularTitle", plain "Flute");
   (S_ "movementName", in_lang "Arie" "DE" false); (S_ "actNumber", plain "1"); (S_ "opusNumber", plain "K. 620"); (S_ "parentTitle", plain "Operas"); (S_ "associatedWork", plain "A")].
Example C154_titles_nonvacuous : s0 [] = false /\ known an_opera
  /\ round g0 g0 s0 g0 [] an_opera = Some
   [(S_ "parentTitle", plain "Operas"); (S_ "associatedWork", plain "A"); (S_ "opusNumber", plain "K. 620");
    (S_ "title", in_lang "Die Zauberfloete" "de" false); (S_ "movementName", in_lang "Arie" "de" false); (S_ "actNumber", plain "1");
    (S_ "title", in_lang "The Magic Flute" "en" true); (S_ "popularTitle", plain "Flute")].
Proof.
  split; [reflexivity|]. split; [|vm_compute; reflexivity].
  unfold known, an_opera. repeat (apply Forall_cons; [split; [cbn; tauto|]|]); [..|apply Forall_nil]; repeat split; vm_compute; reflexivity.
Qed.

Example C154_custom_kept_nonvacuous : processTitle g0 g0 s0 g0 [] [] (El (S_ "title") [(S_ "analog", S_ "humdrum:XXX")] (S_ "Arie") [] []) = [(S_ "humdrum:XXX", plain "Arie")].
Proof. vm_compute. reflexivity. Qed.
Example C154_typed_nonvacuous : processTitle g0 g0 s0 g0 [] [] (El (S_ "title") [(S_ "type", S_ "movementName")] (S_ "Arie") [] []) = [(S_ "movementName", plain "Arie")].
Proof. vm_compute. reflexivity. Qed.

(** What does not come back. *)
Definition comes_back (md : metadata) (p : string) : Prop :=
  exists out, round g0 g0 s0 g0 [] md = Some out /\ values (S_ p) out = values (S_ p) md.
Ltac not_back := intros (out & E & V); vm_compute in E; injection E as <-; vm_compute in V; discriminate V.
(** That a name of a movement is a translation. *)
Theorem C154_translated_refuted : exists md, ~ comes_back md "movementName".
Proof. exists [(S_ "movementName", in_lang "Aria" "en" true)]. not_back. Qed.
Print Assumptions C154_translated_refuted.
(** An opus number with a language comes back twice. *)
Theorem C154_opus_refuted : exists md out, round g0 g0 s0 g0 [] md = Some out
  /\ length (values (S_ "opusNumber") md) = 1 /\ length (values (S_ "opusNumber") out) = 2.
Proof. exists [(S_ "opusNumber", in_lang "Op. 5" "de" false)]. eexists. split; [vm_compute; reflexivity|split; reflexivity]. Qed.
Print Assumptions C154_opus_refuted.
(** A file with two names of movements and no title gets a title. *)
Theorem C154_new_title_refuted : exists md out, round g0 g0 s0 g0 [] md = Some out
  /\ values (S_ "title") md = [] /\ values (S_ "title") out <> [].
Proof.
  exists [(S_ "movementName", in_lang "Arie" "de" false); (S_ "movementName", in_lang "Aria" "en" true)]. eexists. split; [vm_compute; reflexivity|].
  split; [reflexivity|vm_compute; discriminate].
Qed.
Print Assumptions C154_new_title_refuted.
(** A title that is also the name of the only movement is deleted. *)
Theorem C154_same_title_refuted : exists md out, round g0 g0 s0 g0 [] md = Some out
  /\ values (S_ "title") md = [plain "Ave"] /\ values (S_ "title") out = [].
Proof. exists [(S_ "title", plain "Ave"); (S_ "movementName", plain "Ave")]. eexists. split; [vm_compute; reflexivity|split; reflexivity]. Qed.
Print Assumptions C154_same_title_refuted.
(** The language of the title of a parent, and capitals in the name of a language. *)
Theorem C154_language_refuted : exists md, ~ comes_back md "parentTitle" /\ ~ comes_back md "title".
Proof. exists [(S_ "parentTitle", in_lang "Opern" "de" false); (S_ "title", in_lang "Arie" "DE" false)]. split; not_back. Qed.
Print Assumptions C154_language_refuted.
(** A custom key of Humdrum comes back under another name. *)
Theorem C154_custom_key_refuted : exists md out, round g0 g0 s0 g0 [] md = Some out
  /\ md = [(S_ "humdrum:ACO", plain "Essen")] /\ values (S_ "humdrum:ACO") out = [] /\ values (S_ "collectionDesignation") out = [plain "Essen"].
Proof. do 2 eexists. split; [|split; [reflexivity|]]; [vm_compute; reflexivity|split; reflexivity]. Qed.
Print Assumptions C154_custom_key_refuted.

(** ** C155: works that other programs relate to each other *)

Ltac compute_it := match goal with |- ?t = _ => let v := eval vm_compute in t in exact (eq_refl v) end.
Section C155.
Context (glyph_num glyph_name : str -> str) (std : str -> bool) (std_name : str -> str).

(** Without the relations hasPart and host, nothing is raised. *)
Definition harmless (e : xml) : Prop := x_get (S_ "rel") (x_attrs e) <> S_ "hasPart" /\ x_get (S_ "rel") (x_attrs e) <> S_ "host".
Lemma fold_opt_total {A B} (f : A -> B -> option A) l : (forall a x, In x l -> f a x <> None) -> forall a, fold_opt f l a <> None.
Proof.
  induction l as [|x l IH]; intros F a; [discriminate|]. cbn [fold_opt]. destruct (f a x) as [a'|] eqn:E; [|exfalso; apply (F a x (or_introl eq_refl)); exact E].
  apply IH. intros b y Y. apply F. right. exact Y.
Qed.
Theorem C155_no_raise_partial : forall ws, (forall w r e, In w ws -> In r (x_subs w) -> In e (x_subs r) -> harmless e) ->
  processWorkList glyph_num glyph_name std std_name ws <> None.
Proof.
  intros ws H. unfold processWorkList. destruct ws as [|w0 ws0]; [discriminate|]. remember (w0 :: ws0) as ws. clear Heqws w0 ws0.
  assert (L : link_works ws <> None); [|destruct (link_works ws); [discriminate|congruence]].
  unfold link_works. apply fold_opt_total. intros l (i & w) I. cbn [fst snd].
  assert (W : In w ws). { clear - I. revert I. generalize 0. induction ws as [|x ws IH]; intros n I; [destruct I|]. cbn [numbered] in I. destruct I as [E|I]; [left; congruence|right; eapply IH; exact I]. }
  apply fold_opt_total. intros l' e E. unfold relations_of in E. destruct (find_first (S_ "relationList") (x_subs w)) as [r|] eqn:R; [|destruct E].
  apply filter_In in E. destruct E as (E & _). unfold find_first in R. apply find_some in R. destruct R as (R & _).
  destruct (H w r e W R E) as (N1 & N2). unfold link_relation. cbv zeta. destruct (x_get (S_ "target") (x_attrs e)) as [|c t]; [discriminate|].
  destruct (mem _ _) eqn:M; [|discriminate]. unfold mem in M. cbn [existsb] in M.
  apply str_eqb_neq in N1, N2. 
  assert (Q : str_eqb (x_get (S_ "rel") (x_attrs e)) (S_ "isPartOf") = true).
  { destruct (str_eqb (x_get (S_ "rel") (x_attrs e)) (S_ "isPartOf")) eqn:Q; [reflexivity|]. rewrite N1, N2 in M. discriminate. }
  apply fold_opt_total. intros a x _. unfold link_target. cbv zeta. rewrite Q. destruct (find_id _ _ _); discriminate.
Qed.

(** A work without type that the main work names with isPartOf: its title becomes that of a
    parent, a group or a collection, and is not taken for a title of the piece. *)
Definition kind_name (type : str) : str :=
  if str_eqb type (S_ "isChildOfParent") then S_ "parentTitle" else if str_eqb type (S_ "isMemberOfGroup") then S_ "groupTitle" else S_ "collectionDesignation".
Definition foreign_work (id t : str) (more : list xml) : xml := El (S_ "work") [(S_ "xml:id", id)] [] (El (S_ "title") [] t [] [] :: more) [].
Definition part_of (type id : str) : xml :=
  El (S_ "relationList") [] [] [El (S_ "relation") [(S_ "rel", S_ "isPartOf"); (S_ "type", type); (S_ "target", "#"%char :: id)] [] [] []] [].
Lemma single_title ctx md k t : trimmed t -> title_key std ctx [] = Some k ->
  processTitle glyph_num glyph_name std std_name ctx md (El (S_ "title") [] t [] []) = add std_name md (k, MText t None false).
Proof.
  intros T K. unfold processTitle. cbn [x_subs filter fold_left]. rewrite plain_text by exact T.
  match goal with |- (let (_, _) := ?x in _) = _ => transitivity (snd x); [destruct x; reflexivity|] end.
  rewrite read_text with (k := k); [reflexivity|exact T|exact K].
Qed.
Theorem C155_linked : forall id id2 t u type first, std [] = false -> trimmed t -> trimmed u ->
  id <> [] -> char_in " " id = false -> id2 <> id ->
  let encoded := foreign_work id2 u [part_of type id] in
  let other := foreign_work id t [] in
  processWorkList glyph_num glyph_name std std_name (if first : bool then [encoded; other] else [other; encoded])
  = Some [(kind_name type, MText t None false); (S_ "title", MText u None false)].
Proof.
  intros id id2 t u type first S T U N C D. cbv zeta.
  assert (KT : forall m, processTitle glyph_num glyph_name std std_name [] m (El (S_ "title") [] u [] []) = add std_name m (S_ "humdrum:OTL", MText u None false)).
  { intro m. apply single_title; [exact U|]. unfold title_key, usable. change (x_get (S_ "analog") []) with (@nil ascii). rewrite S. reflexivity. }
  assert (KC : forall r m, processTitle glyph_num glyph_name std std_name (humdrum ++ S_ r) m (El (S_ "title") [] t [] []) = add std_name m (humdrum ++ S_ r, MText t None false)).
  { intros r m. apply single_title; [exact T|]. unfold title_key, usable. change (x_get (S_ "analog") []) with (@nil ascii). rewrite S. reflexivity. }
  assert (MP : forall m, processMain glyph_num glyph_name std std_name m (part_of type id) = m) by reflexivity.
  assert (F2 : str_eqb id2 id = false) by (apply str_eqb_neq; exact D).
  assert (SP : split_char " " ("#"%char :: id) = ["#"%char :: id]) by (apply split_char_no_sep; cbn [char_in]; exact C).
  assert (RO : removeOctothorpe ("#"%char :: id) = id) by reflexivity.
  assert (LR : forall ws i l k, find_id id ws 0 = Some k -> fold_opt (link_relation ws i) (relations_of (foreign_work id2 u [part_of type id])) l
     = Some (note_link (if str_eqb type (S_ "isMemberOfCollection") then LCollection else if str_eqb type (S_ "isMemberOfGroup") then LGroup
             else if str_eqb type (S_ "isChildOfParent") then LParent else LCollection) i k (set_group (Some k) l))).
  { intros ws i l k F.
    change (relations_of (foreign_work id2 u [part_of type id])) with [El (S_ "relation") [(S_ "rel", S_ "isPartOf"); (S_ "type", type); (S_ "target", "#"%char :: id)] [] [] []].
    cbn [fold_opt]. unfold link_relation. cbn [x_attrs]. cbv zeta.
    change (x_get (S_ "rel") [(S_ "rel", S_ "isPartOf"); (S_ "type", type); (S_ "target", "#"%char :: id)]) with (S_ "isPartOf").
    change (x_get (S_ "type") [(S_ "rel", S_ "isPartOf"); (S_ "type", type); (S_ "target", "#"%char :: id)]) with type.
    change (x_get (S_ "target") [(S_ "rel", S_ "isPartOf"); (S_ "type", type); (S_ "target", "#"%char :: id)]) with ("#"%char :: id).
    cbv iota. change (mem (S_ "isPartOf") [S_ "isPartOf"; S_ "hasPart"; S_ "host"]) with true. cbv iota. rewrite SP. cbn [fold_opt]. unfold link_target. rewrite RO, F.
    change (str_eqb (S_ "isPartOf") (S_ "isPartOf")) with true. cbv iota zeta. reflexivity. }
  assert (KN : forall X : kind_of_link -> str -> Prop, X LCollection (S_ "collectionDesignation") -> X LGroup (S_ "groupTitle") -> X LParent (S_ "parentTitle") ->
    X (if str_eqb type (S_ "isMemberOfCollection") then LCollection else if str_eqb type (S_ "isMemberOfGroup") then LGroup
             else if str_eqb type (S_ "isChildOfParent") then LParent else LCollection) (kind_name type)).
  { intros X X1 X2 X3. unfold kind_name. destruct (str_eqb type (S_ "isMemberOfCollection")) eqn:Q1.
    - apply str_eqb_eq in Q1. subst type. exact X1.
    - destruct (str_eqb type (S_ "isMemberOfGroup")) eqn:Q2; [apply str_eqb_eq in Q2; subst type; exact X2|].
      destruct (str_eqb type (S_ "isChildOfParent")); [exact X3|exact X1]. }
  destruct first.
  - set (ws := [foreign_work id2 u [part_of type id]; foreign_work id t []]).
    assert (F : find_id id ws 0 = Some 1).
    { unfold ws. cbn [find_id foreign_work x_attrs]. change (assoc_str (S_ "xml:id") [(S_ "xml:id", id2)]) with (Some id2). change (assoc_str (S_ "xml:id") [(S_ "xml:id", id)]) with (Some id).
      cbv iota. rewrite F2, str_eqb_refl. reflexivity. }
    assert (L : link_works ws = Some (note_link (if str_eqb type (S_ "isMemberOfCollection") then LCollection else if str_eqb type (S_ "isMemberOfGroup") then LGroup
             else if str_eqb type (S_ "isChildOfParent") then LParent else LCollection) 0 1 (set_group (Some 1) no_links))).
    { unfold link_works. change (numbered 0 ws) with [(0, foreign_work id2 u [part_of type id]); (1, foreign_work id t [])]. cbn [fold_opt fst snd]. rewrite (LR ws 0 no_links 1 F). reflexivity. }
    revert L. apply (KN (fun k n => link_works ws = Some (note_link k 0 1 (set_group (Some 1) no_links)) -> _ = Some [(n, _); _])); intro L;
      (eapply process_by; [discriminate|exact L|compute_it|compute_it|compute_it|compute_it|compute_it|]); unfold read_related, titles_of; cbn [fold_left nth ws foreign_work x_subs filter x_name];
      change (str_eqb (S_ "title") (S_ "title")) with true; cbv iota; cbn [fold_left]; rewrite KC, ?MP, main_title by reflexivity; rewrite KT; reflexivity.
  - set (ws := [foreign_work id t []; foreign_work id2 u [part_of type id]]).
    assert (F : find_id id ws 0 = Some 0).
    { unfold ws. cbn [find_id foreign_work x_attrs]. change (assoc_str (S_ "xml:id") [(S_ "xml:id", id)]) with (Some id).
      cbv iota. rewrite str_eqb_refl. reflexivity. }
    assert (L : link_works ws = Some (note_link (if str_eqb type (S_ "isMemberOfCollection") then LCollection else if str_eqb type (S_ "isMemberOfGroup") then LGroup
             else if str_eqb type (S_ "isChildOfParent") then LParent else LCollection) 1 0 (set_group (Some 0) no_links))).
    { unfold link_works. change (numbered 0 ws) with [(0, foreign_work id t []); (1, foreign_work id2 u [part_of type id])]. cbn [fold_opt fst snd]. change (relations_of (foreign_work id t [])) with (@nil xml).
      cbn [fold_opt]. rewrite (LR ws 1 no_links 0 F). reflexivity. }
    revert L. apply (KN (fun k n => link_works ws = Some (note_link k 1 0 (set_group (Some 0) no_links)) -> _ = Some [(n, _); _])); intro L;
      (eapply process_by; [discriminate|exact L|compute_it|compute_it|compute_it|compute_it|compute_it|]); unfold read_related, titles_of; cbn [fold_left nth ws foreign_work x_subs filter x_name];
      change (str_eqb (S_ "title") (S_ "title")) with true; cbv iota; cbn [fold_left]; rewrite KC, ?MP, main_title by reflexivity; rewrite KT; reflexivity.
Qed.
(** The titles of a work to which the piece belongs never become titles or numbers of the
    piece: whatever its elements say, reading it adds to one property only. *)
Theorem C155_related_only : forall ref md e p, name_of std_name (humdrum ++ S_ ref) <> p ->
  values p (processTitle glyph_num glyph_name std std_name (humdrum ++ S_ ref) md e) = values p md.
Proof.
  intros ref md e p N.
  assert (K : forall a k, title_key std (humdrum ++ S_ ref) a = Some k -> k = humdrum ++ S_ ref).
  { intros a k. unfold title_key. change (humdrum ++ S_ ref) with ("h"%char :: (S_ "umdrum:" ++ S_ ref)). cbv iota.
    destruct (str_eqb (x_get (S_ "analog") a) _) eqn:E; [intro H; injection H as <-; apply str_eqb_eq; exact E|]. destruct (usable std _); [discriminate|]. destruct (mem _ _); [discriminate|]. intro H. injection H as <-. reflexivity. }
  assert (A : forall orig x t m, values p (snd (title_text std std_name (humdrum ++ S_ ref) orig x t m)) = values p m).
  { intros orig x t m. unfold title_text. destruct (strip t); [reflexivity|]. cbn [snd]. destruct (title_key std (humdrum ++ S_ ref) (x_attrs x)) as [k|] eqn:E; [|reflexivity]. apply K in E. subst k.
    rewrite values_add. cbn [fst]. apply str_eqb_neq in N. rewrite N. reflexivity. }
  unfold processTitle. destruct (title_text std std_name (humdrum ++ S_ ref) [] e _ md) as (orig, md') eqn:T.
  assert (M : values p md' = values p md) by (pose proof (A [] e (fst (text_of glyph_num glyph_name (S_ "titlePart") e)) md) as Q; rewrite T in Q; exact Q).
  rewrite <- M. clear T M. revert md'. induction (filter _ (x_subs e)) as [|x l IH]; intro md'; [reflexivity|]. cbn [fold_left]. rewrite IH. apply A.
Qed.
End C155.
Print Assumptions C155_related_only.
Example C155_related_only_nonvacuous :
  let e := El (S_ "title") [(S_ "analog", S_ "humdrum:OTL")] (S_ "Winterreise") [] [] in
  processTitle g0 g0 s0 g0 (humdrum ++ S_ "OPR") [] e = [] /\ processTitle g0 g0 s0 g0 [] [] e <> [].
Proof. split; [vm_compute; reflexivity|vm_compute; discriminate]. Qed.
Print Assumptions C155_no_raise_partial.
Print Assumptions C155_linked.
Example C155_linked_nonvacuous : processWorkList g0 g0 s0 g0 [foreign_work (S_ "w2") (S_ "Aria") [part_of [] (S_ "w1")]; foreign_work (S_ "w1") (S_ "Songs") []]
  = Some [(S_ "collectionDesignation", plain "Songs"); (S_ "title", plain "Aria")].
Proof. vm_compute. reflexivity. Qed.

(** The relations hasPart and host to a work that is there raise (a variable that is not
    bound). *)
Theorem C155_raises_refuted : forall rel, In rel [S_ "hasPart"; S_ "host"] ->
  exists ws, processWorkList g0 g0 s0 g0 ws = None
  /\ ws = [foreign_work (S_ "w1") (S_ "Songs") [El (S_ "relationList") [] [] [El (S_ "relation") [(S_ "rel", rel); (S_ "target", S_ "#w2")] [] [] []] []]; foreign_work (S_ "w2") (S_ "Aria") []].
Proof. intros rel [<-|[<-|[]]]; (eexists; split; [|reflexivity]); vm_compute; reflexivity. Qed.
Print Assumptions C155_raises_refuted.
(** A title with the type movementName of a related work is left out, but not one with the
    type movementNumber or number. *)
Theorem C155_left_out_refuted : forall type, In type [S_ "number"; S_ "movementNumber"] ->
  let w (ty : str) := [El (S_ "work") [(S_ "type", S_ "parent")] [] [El (S_ "title") [(S_ "type", ty)] (S_ "3") [] []] []; foreign_work (S_ "w2") (S_ "Aria") []] in
  (exists out, processWorkList g0 g0 s0 g0 (w (S_ "opusNumber")) = Some out /\ values (S_ "parentTitle") out = [])
  /\ exists out, processWorkList g0 g0 s0 g0 (w type) = Some out /\ values (S_ "parentTitle") out = [plain "3"].
Proof. intros type [<-|[<-|[]]]; (split; (eexists; split; [vm_compute; reflexivity|reflexivity])). Qed.
Print Assumptions C155_left_out_refuted.

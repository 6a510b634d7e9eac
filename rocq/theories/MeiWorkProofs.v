(** Proofs about titles, numbers and related works in the head of MEI files. *)
From Coq Require Import List Ascii String Arith NArith ZArith Lia Bool Permutation.
From Verif Require Import PyStr PyStrProofs LayoutModel LayoutProofs ClefModel LyricProofs2 MeiTextModel MeiIdsModel MeiStyleModel PropsMeiText PropsMeiStyle MeiWorkModel.
Import ListNotations.

(** ** C154: titles and numbers of a work come back *)

(** A text with its language in small letters; an empty language is none. *)
Definition small_lang (v : mtext) : option str := match v_lang v with Some (c :: s) => Some (lower (c :: s)) | _ => None end.
Definition with_lang (v : mtext) : mtext := MText (v_data v) (small_lang v) false.
Definition without_lang (v : mtext) : mtext := MText (v_data v) None false.
Definition with_both (v : mtext) : mtext := MText (v_data v) (small_lang v) (v_trans v).
Definition original (l : list mtext) : list mtext := filter (fun v => negb (v_trans v)) l.
Definition translated (l : list mtext) : list mtext := filter v_trans l.
(** No two texts have the same words in the same language. *)
Definition differ (l : list mtext) : Prop := NoDup (map (fun v => (v_data v, small_lang v)) l).
Definition differ_words (l : list mtext) : Prop := NoDup (map v_data l).
(** Metadata of the properties that are modelled, the texts without spaces at the ends. *)
Definition known (md : metadata) : Prop := Forall (fun x => In (fst x) (map snd ref_names) /\ trimmed (v_data (snd x))) md.

(** *** Adding without duplicates *)
Definition ddup (acc l : list mtext) : list mtext := fold_left (fun acc v => if existsb (fun x => same x v) acc then acc else acc ++ [v]) l acc.

Section Proofs.
Context (glyph_num glyph_name : str -> str) (std : str -> bool) (std_name : str -> str).
Local Notation name := (name_of std_name).
Local Notation addm := (add std_name).

Lemma values_app p a b : values p (a ++ b) = values p a ++ values p b.
Proof. unfold values. rewrite filter_app, map_app. reflexivity. Qed.
Lemma values_one p n v : values p [(n, v)] = if str_eqb n p then [v] else [].
Proof. unfold values. cbn [filter fst]. destruct (str_eqb n p); reflexivity. Qed.
Lemma values_add p md x : values p (addm md x) = if str_eqb (name (fst x)) p then ddup (values p md) [snd x] else values p md.
Proof.
  unfold add. cbv zeta. destruct (str_eqb (name (fst x)) p) eqn:E.
  - apply str_eqb_eq in E. rewrite E. cbn [ddup fold_left]. destruct (existsb _ (values p md)); [reflexivity|].
    rewrite values_app, values_one, str_eqb_refl. reflexivity.
  - destruct (existsb _ _); [reflexivity|]. rewrite values_app, values_one, E. apply app_nil_r.
Qed.
Lemma values_fold p l md : values p (fold_left addm l md) = ddup (values p md) (map snd (filter (fun x => str_eqb (name (fst x)) p) l)).
Proof.
  revert md. induction l as [|x l IH]; intro md; [reflexivity|]. cbn [fold_left filter]. rewrite IH, values_add.
  destruct (str_eqb (name (fst x)) p); reflexivity.
Qed.

Lemma opt_eqb_eq a b : opt_eqb a b = true <-> a = b.
Proof.
  destruct a as [a|], b as [b|]; cbn [opt_eqb]; split; intro H; try discriminate; try reflexivity.
  - apply str_eqb_eq in H. subst. reflexivity.
  - injection H as ->. apply str_eqb_refl.
Qed.
Lemma same_eq a b : same a b = true <-> (v_data a, v_lang a) = (v_data b, v_lang b).
Proof.
  unfold same. rewrite andb_true_iff, opt_eqb_eq, str_eqb_eq. split; [intros (-> & ->); reflexivity|]. intro H. injection H as -> ->. auto.
Qed.
Definition tag (v : mtext) : str * option str := (v_data v, v_lang v).
Lemma exists_tag v acc : existsb (fun x => same x v) acc = true <-> In (tag v) (map tag acc).
Proof.
  rewrite existsb_exists, in_map_iff. split; intros (x & A & B); exists x.
  - apply same_eq in B. auto.
  - split; [exact B|]. apply same_eq. exact A.
Qed.
Lemma ddup_new l acc : NoDup (map tag (acc ++ l)) -> ddup acc l = acc ++ l.
Proof.
  revert acc. induction l as [|v l IH]; intros acc N; [cbn; rewrite app_nil_r; reflexivity|]. cbn [ddup fold_left].
  destruct (existsb (fun x => same x v) acc) eqn:E.
  - exfalso. apply exists_tag in E. rewrite map_app in N. cbn [map] in N. apply NoDup_remove_2 in N. apply N, in_or_app. left. exact E.
  - change (ddup (acc ++ [v]) l = acc ++ v :: l). rewrite IH; rewrite <- app_assoc; [reflexivity|exact N].
Qed.
Lemma ddup_old l acc : incl (map tag l) (map tag acc) -> ddup acc l = acc.
Proof.
  induction l as [|v l IH]; intro I; [reflexivity|]. cbn [ddup fold_left].
  assert (E : existsb (fun x => same x v) acc = true) by (apply exists_tag; apply I; left; reflexivity). rewrite E. apply IH. intros x H. apply I. right. exact H.
Qed.
Lemma ddup_app a l1 l2 : ddup a (l1 ++ l2) = ddup (ddup a l1) l2.
Proof. unfold ddup. apply fold_left_app. Qed.

(** *** What one element adds *)
Lemma plain_text endAt n a t tail : trimmed t -> fst (text_of glyph_num glyph_name endAt (El n a t [] tail)) = t.
Proof. intro T. unfold text_of. cbn [depth map fold_right textFromElem x_subs until cat2 flat_map x_text fst]. rewrite (keep_trimmed _ T), app_nil_r. reflexivity. Qed.
Lemma trimmed_cons t : trimmed t -> exists c s, t = c :: s.
Proof. intros (T & _). destruct t; [destruct T|eauto]. Qed.

Lemma read_text ctx orig e md t k : trimmed t -> title_key std ctx (x_attrs e) = Some k ->
  let lang := assoc_str (S_ "xml:lang") (x_attrs e) in
  snd (title_text std std_name ctx orig e t md)
  = addm md (k, MText t lang (match (match orig, opt_str lang with [], _ :: _ => if mem (x_get (S_ "type") (x_attrs e)) [[]; S_ "main"; S_ "uniform"] then opt_str lang else [] | _, _ => orig end), opt_str lang with
                             | (_ :: _) as o, _ :: _ => negb (str_eqb (opt_str lang) o)
                             | _, _ => str_eqb (x_get (S_ "type") (x_attrs e)) (S_ "translated") end)).
Proof.
  intros T K. cbv zeta. unfold title_text. rewrite (strip_trimmed _ T). destruct (trimmed_cons _ T) as (c & s & ->). rewrite K. cbn [snd].
  destruct orig as [|o os], (opt_str (assoc_str (S_ "xml:lang") (x_attrs e))) as [|x xs]; try reflexivity.
  destruct (mem _ _); reflexivity.
Qed.

Lemma part_lang t r v : assoc_str (S_ "xml:lang") ([(S_ "type", S_ t); (S_ "analog", humdrum ++ S_ r)] ++ lang_attr v) = small_lang v.
Proof.
  cbn [app assoc_str]. eqbs. unfold lang_attr, lang_of, small_lang. destruct (v_lang v) as [[|c s]|]; try reflexivity.
Qed.
Lemma starts_humdrum r : starts_with humdrum (humdrum ++ r) = true.
Proof. reflexivity. Qed.
Lemma part_analog t r v : x_get (S_ "analog") ([(S_ "type", S_ t); (S_ "analog", humdrum ++ S_ r)] ++ lang_attr v) = humdrum ++ S_ r.
Proof. unfold x_get. cbn [app assoc_str]. eqbs. reflexivity. Qed.
Lemma part_key t r v : title_key std [] ([(S_ "type", S_ t); (S_ "analog", humdrum ++ S_ r)] ++ lang_attr v) = Some (humdrum ++ S_ r).
Proof. unfold title_key. rewrite part_analog. unfold usable. rewrite starts_humdrum. reflexivity. Qed.

Lemma part_type t r v : x_get (S_ "type") ([(S_ "type", S_ t); (S_ "analog", humdrum ++ S_ r)] ++ lang_attr v) = S_ t.
Proof. unfold x_get. cbn [app assoc_str]. eqbs. reflexivity. Qed.
Lemma read_part lay t r v md : trimmed (v_data v) -> str_eqb (S_ t) (S_ "translated") = false -> mem (S_ t) [[]; S_ "main"; S_ "uniform"] = false ->
  snd (title_text std std_name [] [] (part lay t r v) (fst (text_of glyph_num glyph_name [] (part lay t r v))) md) = addm md (humdrum ++ S_ r, with_lang v).
Proof.
  intros T N1 N2. unfold part, leaf. rewrite plain_text by exact T. rewrite read_text with (k := humdrum ++ S_ r); [|exact T|apply part_key].
  cbv zeta. cbn [x_attrs]. rewrite part_lang, part_type, N1, N2. unfold with_lang. destruct (small_lang v) as [[|c s]|]; reflexivity.
Qed.
Lemma read_main lay v md : trimmed (v_data v) ->
  snd (title_text std std_name [] [] (main_part lay v) (fst (text_of glyph_num glyph_name [] (main_part lay v))) md) = addm md (humdrum ++ S_ "OTL", with_both v).
Proof.
  intros T. unfold main_part, part, leaf. rewrite plain_text by exact T. rewrite read_text with (k := humdrum ++ S_ "OTL"); [|exact T|apply part_key].
  cbv zeta. cbn [x_attrs]. rewrite part_lang, part_type. unfold with_both. destruct (v_trans v).
  - change (mem (S_ "translated") [[]; S_ "main"; S_ "uniform"]) with false. change (str_eqb (S_ "translated") (S_ "translated")) with true.
    destruct (small_lang v) as [[|c s]|]; reflexivity.
  - change (mem (S_ "main") [[]; S_ "main"; S_ "uniform"]) with true. change (str_eqb (S_ "main") (S_ "translated")) with false.
    destruct (small_lang v) as [[|c s]|]; try reflexivity. cbn [opt_str]. rewrite str_eqb_refl. reflexivity.
Qed.

(** A list of texts with what each adds. *)
Definition adds (r : string) (f : mtext -> mtext) (l : list mtext) : list (str * mtext) := map (fun v => (humdrum ++ S_ r, f v)) l.
Lemma fold_map {A B C} (f : A -> B -> A) (g : C -> B) l a : fold_left f (map g l) a = fold_left (fun a x => f a (g x)) l a.
Proof. revert a. induction l as [|x l IH]; intro a; [reflexivity|]. apply IH. Qed.
Lemma fold_ext {A B} (f g : A -> B -> A) l a : Forall (fun x => forall a, f a x = g a x) l -> fold_left f l a = fold_left g l a.
Proof. intro F. revert a. induction F as [|x l E F IH]; intro a; [reflexivity|]. cbn [fold_left]. rewrite E. apply IH. Qed.
Definition all_trimmed (l : list mtext) : Prop := Forall (fun v => trimmed (v_data v)) l.
Lemma filter_trimmed f l : all_trimmed l -> all_trimmed (filter f l).
Proof. intro F. induction F as [|v l T F IH]; [constructor|]. cbn [filter]. destruct (f v); [constructor; assumption|assumption]. Qed.

Local Notation step orig := (fun md p => snd (title_text std std_name [] orig p (fst (text_of glyph_num glyph_name [] p)) md)).
Lemma fold_parts lay t r l md : all_trimmed l -> str_eqb (S_ t) (S_ "translated") = false -> mem (S_ t) [[]; S_ "main"; S_ "uniform"] = false ->
  fold_left (step []) (map (part lay t r) l) md = fold_left addm (adds r with_lang l) md.
Proof.
  intros T N1 N2. unfold adds. rewrite !fold_map. apply fold_ext. eapply Forall_impl; [|exact T]. intros v Tv a. apply read_part; assumption.
Qed.
Lemma fold_mains lay l md : all_trimmed l -> fold_left (step []) (map (main_part lay) l) md = fold_left addm (adds "OTL" with_both l) md.
Proof.
  intros T. unfold adds. rewrite !fold_map. apply fold_ext. eapply Forall_impl; [|exact T]. intros v Tv a. apply read_main; assumption.
Qed.

(** All that the title parts add. *)
Definition part_adds (trans : bool) (md : metadata) : list (str * mtext) :=
  let those (k : string) := filter (fun v => Bool.eqb (v_trans v) trans) (contents k md) in
  adds "OTL" with_both (those "OTL"%string)
  ++ adds "OMD" with_lang (those "OMD"%string) ++ adds "ONM" with_lang (those "ONM"%string)
  ++ adds "OMV" with_lang (those "OMV"%string) ++ adds "OPS" with_lang (those "OPS"%string)
  ++ adds "OAC" with_lang (those "OAC"%string) ++ adds "OSC" with_lang (those "OSC"%string).
Definition texts_ok (md : metadata) : Prop := forall k, all_trimmed (contents k md).
Lemma parts_named lay trans md : Forall (fun e => x_name e = S_ "titlePart") (title_parts lay trans md).
Proof. unfold title_parts. cbv zeta. repeat (apply Forall_app; split); apply Forall_forall; intros e I; apply in_map_iff in I; destruct I as (v & <- & _); reflexivity. Qed.
Lemma filter_all {A} (f : A -> bool) l : Forall (fun x => f x = true) l -> filter f l = l.
Proof. induction 1 as [|x l E F IH]; [reflexivity|]. cbn [filter]. rewrite E, IH. reflexivity. Qed.
Lemma filter_none {A} (f : A -> bool) l : Forall (fun x => f x = false) l -> filter f l = [].
Proof. induction 1 as [|x l E F IH]; [reflexivity|]. cbn [filter]. rewrite E. exact IH. Qed.

Lemma read_whole_title lay type trans md0 md : lay = [] \/ layout lay -> texts_ok md ->
  processTitle glyph_num glyph_name std std_name [] md0 (El (S_ "title") [(S_ "type", S_ type)] lay (title_parts lay trans md) lay)
  = fold_left addm (part_adds trans md) md0.
Proof.
  intros L T. unfold processTitle.
  assert (Z : title_text std std_name [] [] (El (S_ "title") [(S_ "type", S_ type)] lay (title_parts lay trans md) lay)
    (fst (text_of glyph_num glyph_name (S_ "titlePart") (El (S_ "title") [(S_ "type", S_ type)] lay (title_parts lay trans md) lay))) md0 = ([], md0)).
  { unfold text_of. cbn [depth textFromElem x_subs x_text].
    assert (U : until (S_ "titlePart") (title_parts lay trans md) = []).
    { pose proof (parts_named lay trans md) as P. destruct (title_parts lay trans md) as [|e l]; [reflexivity|]. inversion P as [|? ? E _]. cbn [until]. rewrite E. reflexivity. }
    rewrite U. cbn [map cat2 flat_map fst]. rewrite (keep_lay lay L). reflexivity. }
  rewrite Z. cbn [x_subs]. rewrite filter_all.
  2:{ eapply Forall_impl; [|apply (parts_named lay trans md)]. intros e E. cbn beta. rewrite E. reflexivity. }
  unfold title_parts, part_adds. cbv zeta. rewrite !fold_left_app.
  rewrite fold_mains by (apply filter_trimmed, T). rewrite !fold_parts by (first [apply filter_trimmed, T|reflexivity]). reflexivity.
Qed.

Lemma read_other lay t r v md : trimmed (v_data v) -> str_eqb (S_ t) (S_ "translated") = false -> mem (S_ t) [[]; S_ "main"; S_ "uniform"] = false ->
  processTitle glyph_num glyph_name std std_name [] md (other_title lay t r v) = addm md (humdrum ++ S_ r, with_lang v).
Proof.
  intros T N1 N2. unfold processTitle, other_title, leaf. cbn [x_subs filter]. rewrite plain_text by exact T.
  match goal with |- (let (_, _) := ?x in _) = _ => transitivity (snd x); [destruct x; reflexivity|] end.
  rewrite read_text with (k := humdrum ++ S_ r); [|exact T|apply part_key].
  cbv zeta. cbn [x_attrs]. rewrite part_lang, part_type, N1, N2. unfold with_lang. destruct (small_lang v) as [[|c s]|]; reflexivity.
Qed.
Lemma read_related_title lay ctx r v md : trimmed (v_data v) -> ctx = [] \/ ctx = humdrum ++ S_ r ->
  processTitle glyph_num glyph_name std std_name ctx md (leaf lay "title" [(S_ "analog", humdrum ++ S_ r)] (v_data v)) = addm md (humdrum ++ S_ r, without_lang v).
Proof.
  intros T C. unfold processTitle, leaf. cbn [x_subs filter]. rewrite plain_text by exact T.
  match goal with |- (let (_, _) := ?x in _) = _ => transitivity (snd x); [destruct x; reflexivity|] end.
  rewrite read_text with (k := humdrum ++ S_ r); [reflexivity|exact T|].
  cbn [x_attrs]. destruct C as [->| ->].
  - unfold title_key. change (x_get (S_ "analog") [(S_ "analog", humdrum ++ S_ r)]) with (humdrum ++ S_ r). unfold usable. rewrite starts_humdrum. reflexivity.
  - unfold title_key. change (x_get (S_ "analog") [(S_ "analog", humdrum ++ S_ r)]) with (humdrum ++ S_ r). rewrite str_eqb_refl. reflexivity.
Qed.
Lemma read_identifier lay r v md : trimmed (v_data v) ->
  processIdentifier glyph_num glyph_name std std_name md (leaf lay "identifier" [(S_ "analog", humdrum ++ S_ r)] (v_data v)) = addm md (humdrum ++ S_ r, without_lang v).
Proof.
  intros T. unfold processIdentifier, leaf. rewrite plain_text by exact T. rewrite strip_trimmed by exact T. destruct (trimmed_cons _ T) as (c & s & E). rewrite E.
  cbn [x_attrs]. change (x_get (S_ "analog") [(S_ "analog", humdrum ++ S_ r)]) with (humdrum ++ S_ r). unfold usable. rewrite starts_humdrum. cbn [orb].
  unfold without_lang. rewrite E. reflexivity.
Qed.

Local Notation main := (processMain glyph_num glyph_name std std_name).
Lemma main_title md e : x_name e = S_ "title" -> main md e = processTitle glyph_num glyph_name std std_name [] md e.
Proof. intro N. unfold processMain. rewrite N. reflexivity. Qed.
Lemma fold_identifiers lay r l md : all_trimmed l ->
  fold_left main (map (fun v => leaf lay "identifier" [(S_ "analog", humdrum ++ S_ r)] (v_data v)) l) md = fold_left addm (adds r without_lang l) md.
Proof.
  intro T. unfold adds. rewrite !fold_map. apply fold_ext. eapply Forall_impl; [|exact T]. intros v Tv a. cbn beta in Tv.
  unfold processMain. change (x_name (leaf lay "identifier" ?x ?y)) with (S_ "identifier"). change (str_eqb (S_ "identifier") (S_ "identifier")) with true. cbv iota. apply read_identifier. exact Tv.
Qed.
Lemma fold_others lay t r l md : all_trimmed l -> str_eqb (S_ t) (S_ "translated") = false -> mem (S_ t) [[]; S_ "main"; S_ "uniform"] = false ->
  fold_left main (map (other_title lay t r) l) md = fold_left addm (adds r with_lang l) md.
Proof.
  intros T N1 N2. unfold adds. rewrite !fold_map. apply fold_ext. eapply Forall_impl; [|exact T]. intros v Tv a. cbn beta in Tv. rewrite main_title by reflexivity. apply read_other; assumption.
Qed.
Lemma fold_titles lay ctx r l md : all_trimmed l -> ctx = [] \/ ctx = humdrum ++ S_ r ->
  fold_left (processTitle glyph_num glyph_name std std_name ctx) (map (fun v => leaf lay "title" [(S_ "analog", humdrum ++ S_ r)] (v_data v)) l) md = fold_left addm (adds r without_lang l) md.
Proof.
  intros T C. unfold adds. rewrite !fold_map. apply fold_ext. eapply Forall_impl; [|exact T]. intros v Tv a. apply read_related_title; assumption.
Qed.

Definition title_adds (md : metadata) : list (str * mtext) :=
  part_adds false md ++ part_adds true md ++ adds "OTA" with_lang (contents "OTA" md) ++ adds "OTP" with_lang (contents "OTP" md).
Lemma parts_nil lay trans md : title_parts lay trans md = [] -> part_adds trans md = [].
Proof.
  intro E. apply (f_equal (@length _)) in E. apply length_zero_iff_nil. etransitivity; [|exact E]. unfold title_parts, part_adds, adds. cbv zeta. rewrite !app_length, !map_length. reflexivity.
Qed.
Lemma fold_titleElements lay md md0 : lay = [] \/ layout lay -> texts_ok md -> fold_left main (titleElements lay md) md0 = fold_left addm (title_adds md) md0.
Proof.
  intros L T. unfold titleElements, title_adds. cbv zeta. rewrite !fold_left_app. rewrite !fold_others by (first [apply T|reflexivity]).
  assert (A : forall type trans m, fold_left main (match title_parts lay trans md with [] => [] | _ => [El (S_ "title") [(S_ "type", S_ type)] lay (title_parts lay trans md) lay] end) m = fold_left addm (part_adds trans md) m).
  { intros type trans m. destruct (title_parts lay trans md) as [|x l] eqn:E; [rewrite (parts_nil _ _ _ E); reflexivity|]. rewrite <- E. cbn [fold_left]. rewrite main_title by reflexivity. apply read_whole_title; assumption. }
  rewrite !A. reflexivity.
Qed.
(** *** All that is written *)
Lemma known_keys : forallb (fun n => forallb (fun kp => Bool.eqb (str_eqb (content_key n) (fst kp)) (str_eqb n (snd kp))) ref_names && negb (str_eqb (content_key n) (S_ "ACO"))) (map snd ref_names) = true.
Proof. reflexivity. Qed.
Lemma known_contents md k p : known md -> In (S_ k, p) ref_names -> contents k md = values p md.
Proof.
  intros K I. unfold contents, values. f_equal. apply filter_ext_in. intros x X. unfold known in K. rewrite Forall_forall in K. destruct (K x X) as (N & _).
  pose proof known_keys as F. rewrite forallb_forall in F. specialize (F _ N). apply andb_prop in F. destruct F as (F & _). rewrite forallb_forall in F.
  specialize (F _ I). apply Bool.eqb_prop in F. exact F.
Qed.
Lemma known_no_aco md : known md -> contents "ACO" md = [].
Proof.
  intro K. unfold contents. rewrite filter_none; [reflexivity|]. apply Forall_forall. intros x X. unfold known in K. rewrite Forall_forall in K. destruct (K x X) as (N & _).
  pose proof known_keys as F. rewrite forallb_forall in F. specialize (F _ N). apply andb_prop in F. destruct F as (_ & F). apply negb_true_iff in F. exact F.
Qed.
Lemma known_texts md : known md -> texts_ok md.
Proof.
  intros K k. unfold contents, all_trimmed. rewrite Forall_forall. intros v I. apply in_map_iff in I. destruct I as (x & <- & X). apply filter_In in X.
  unfold known in K. rewrite Forall_forall in K. apply K. apply X.
Qed.

(** The works that are written, with their sub-elements abstracted. *)
Definition wk (lay : str) (type : string) (n : nat) (subs : list xml) : xml :=
  El (S_ "work") [(S_ "xml:id", S_ "work" ++ show_N (N.of_nat n) ++ S_ "_" ++ S_ type); (S_ "type", S_ type)] lay subs lay.
Definition no_list (s : list xml) : Prop := find_first (S_ "relationList") s = None.
Lemma find_first_app n a b : find_first n a = None -> find_first n (a ++ b) = find_first n b.
Proof. induction a as [|x a IH]; [reflexivity|]. unfold find_first in *. cbn [find app]. destruct (str_eqb (x_name x) n); [discriminate|exact IH]. Qed.
Lemma no_list_all s : Forall (fun e => str_eqb (x_name e) (S_ "relationList") = false) s -> no_list s.
Proof. unfold no_list. induction 1 as [|x l E F IH]; [reflexivity|]. unfold find_first in *. cbn [find]. rewrite E. exact IH. Qed.
Lemma wk_relations lay t n s : no_list s -> relations_of (wk lay t n s) = [].
Proof. intro H. unfold relations_of, wk. cbn [x_subs]. rewrite H. reflexivity. Qed.
Definition links_in (lay : str) (relations : list xml) : list xml := match relations with [] => [] | _ => [El (S_ "relationList") [] lay relations lay] end.
Lemma wk_links lay t n s r : no_list s -> Forall (fun e => str_eqb (x_name e) (S_ "relation") = true) r -> relations_of (wk lay t n (s ++ links_in lay r)) = r.
Proof.
  intros H F. unfold relations_of, wk. cbn [x_subs]. rewrite find_first_app by exact H. unfold links_in. destruct r as [|x r]; [reflexivity|].
  unfold find_first. cbn [find x_name]. change (str_eqb (S_ "relationList") (S_ "relationList")) with true. cbv iota. cbn [x_subs]. apply filter_all. exact F.
Qed.
(** A related work with its titles: what they add. *)
Definition related_ok (r : string) (s : list xml) (a : list (str * mtext)) : Prop :=
  no_list s /\ filter (fun e => str_eqb (x_name e) (S_ "title")) s = s
  /\ (forall m, fold_left (processTitle glyph_num glyph_name std std_name (humdrum ++ S_ r)) s m = fold_left addm a m)
  /\ (forall m, fold_left main s m = fold_left addm a m).
Definition opt_ok (r : string) (s : option (list xml)) (a : list (str * mtext)) : Prop := match s with None => a = [] | Some s => related_ok r s a end.
Definition opt_wk (lay : str) (type : string) (s : option (list xml)) (n : nat) : list xml := match s with None => [] | Some s => [wk lay type n s] end.
Definition all_works (lay : str) (p g a c inside : option (list xml)) : list xml :=
  let parent := opt_wk lay "parent" p 0 in
  let n1 := 0 + length parent in
  let group := opt_wk lay "group" g n1 in
  let n2 := n1 + length group in
  let assoc := opt_wk lay "associated" a n2 in
  let n3 := n2 + length assoc in
  let collection := opt_wk lay "collection" c n3 in
  let n4 := n3 + length collection in
  let relations := relation lay "isPartOf" "isChildOfParent" parent ++ relation lay "isPartOf" "isMemberOfGroup" group
    ++ relation lay "isVersionOf" "isAssociatedWith" assoc ++ relation lay "isPartOf" "isMemberOfCollection" collection in
  parent ++ group ++ assoc ++ collection
  ++ match inside with None => [] | Some i => [wk lay "encoded" n4 (i ++ links_in lay relations)] end.

Ltac easy_incl := let z := fresh in let Z := fresh in intros z Z; rewrite ?in_app_iff; cbn [In]; tauto.
Lemma main_links lay r m : fold_left main (links_in lay r) m = m.
Proof. destruct r; reflexivity. Qed.
Local Notation rr := (read_related glyph_num glyph_name std std_name).
Lemma process_by ws l mains ps gs cs als out : ws <> [] -> link_works ws = Some l -> main_works ws l = mains ->
  with_linked (of_type "parent" ws) mains (l_parents l) = ps -> with_linked (of_type "group" ws) mains (l_groups l) = gs ->
  with_linked (of_type "collection" ws) mains (l_collections l) = cs -> of_type "associated" ws = als ->
  fold_left (fun md i => fold_left main (x_subs (nth i ws (El [] [] [] [] []))) md) mains (rr "GAW" ws als (rr "GCO" ws cs (rr "GTL" ws gs (rr "OPR" ws ps [])))) = out ->
  processWorkList glyph_num glyph_name std std_name ws = Some out.
Proof.
  intros N L M P G C A O. unfold processWorkList. destruct ws as [|w ws]; [congruence|]. rewrite L. cbv zeta. rewrite M, P, G, C, A, O. reflexivity.
Qed.
Ltac compute_it := match goal with |- ?t = _ => let v := eval vm_compute in t in exact (eq_refl v) end.
Lemma read_works lay p g a c i ap ag aa ac ai :
  opt_ok "OPR" p ap -> opt_ok "GTL" g ag -> opt_ok "GAW" a aa -> opt_ok "GCO" c ac ->
  match i with None => ai = [] | Some s => no_list s /\ forall m, fold_left main s m = fold_left addm ai m end ->
  exists extra, incl extra (ap ++ ag ++ ac ++ aa) /\
  processWorkList glyph_num glyph_name std std_name (all_works lay p g a c i) = Some (fold_left addm (ap ++ ag ++ ac ++ aa ++ ai ++ extra) []).
Proof.
  intros P G A C I.
  assert (E : exists extra, incl extra (ap ++ ag ++ ac ++ aa) /\ (i <> None -> extra = []) /\
    (i = None -> all_works lay p g a c i = [] \/ exists t n s, hd_error (all_works lay p g a c i) = Some (wk lay t n s) /\ forall m, fold_left main s m = fold_left addm extra m) /\
    (i = None -> all_works lay p g a c i = [] -> extra = [])).
  { destruct i as [i|]; [exists []; repeat split; [intros x []|discriminate]|].
    destruct p as [p|]; [exists ap; split; [easy_incl|]; split; [congruence|]; split; [|discriminate]; intros _; right; exists "parent"%string, 0, p; split; [reflexivity|apply P]|].
    cbn [opt_ok] in P. subst ap.
    destruct g as [g|]; [exists ag; split; [easy_incl|]; split; [congruence|]; split; [|discriminate]; intros _; right; exists "group"%string, 0, g; split; [reflexivity|apply G]|].
    cbn [opt_ok] in G. subst ag.
    destruct a as [a|]; [exists aa; split; [easy_incl|]; split; [congruence|]; split; [|discriminate]; intros _; right; exists "associated"%string, 0, a; split; [reflexivity|apply A]|].
    cbn [opt_ok] in A. subst aa.
    destruct c as [c|]; [exists ac; split; [easy_incl|]; split; [congruence|]; split; [|discriminate]; intros _; right; exists "collection"%string, 0, c; split; [reflexivity|apply C]|].
    exists []. split; [intros x []|]. split; [congruence|]. split; [intros _; left; reflexivity|reflexivity]. }
  destruct E as (extra & X1 & X2 & X3 & X4). exists extra. split; [exact X1|].
  destruct p as [p|], g as [g|], a as [a|], c as [c|], i as [i|]; cbn [opt_ok] in *;
    repeat match goal with H : ?x = [] |- _ => subst x end.
  all: try (rewrite (X2 ltac:(discriminate)), app_nil_r); unfold all_works in *; cbn [opt_wk length plus] in *; cbv zeta in *; cbn [app relation] in *.
  all: try (rewrite (X4 eq_refl eq_refl); reflexivity).
  all: try (destruct (X3 eq_refl) as [X|(t & n & s & Hd & X)]; [discriminate X|]; apply (f_equal (fun o => match o with Some w => x_subs w | None => [] end)) in Hd; cbn [hd_error wk x_subs] in Hd; subst s).
  all: eapply process_by; [discriminate
     |unfold link_works; cbn [numbered fold_opt fst snd]; rewrite ?wk_relations by (first [apply P|apply G|apply A|apply C]); rewrite ?wk_links by (first [apply I|repeat constructor]); compute_it
     |compute_it|compute_it|compute_it|compute_it|compute_it|].
  all: clear X1 X2 X3 X4; unfold read_related; cbn [fold_left nth];
    repeat match goal with H : related_ok _ _ _ |- _ => let N := fresh in let F := fresh in let T := fresh in let M := fresh in destruct H as (N & F & T & M);
      unfold titles_of; cbn [wk x_subs]; try rewrite F; try rewrite T end;
    rewrite ?fold_left_app; cbn [wk x_subs fold_left]; rewrite ?fold_left_app, ?main_links; cbn [fold_left].
  all: try (rewrite (proj2 I)); try rewrite X; reflexivity.
Qed.
Definition some_subs (l : list xml) : option (list xml) := match l with [] => None | _ => Some l end.
Definition title_leaves (lay : str) (r : string) (l : list mtext) : list xml := map (fun v => leaf lay "title" [(S_ "analog", humdrum ++ S_ r)] (v_data v)) l.
Lemma related_wk lay t r l n : related lay t r l n = opt_wk lay t (some_subs (title_leaves lay r l)) n.
Proof. destruct l; reflexivity. Qed.
Lemma leaves_titled lay r l : Forall (fun e => x_name e = S_ "title") (title_leaves lay r l).
Proof. apply Forall_forall. intros e I. apply in_map_iff in I. destruct I as (v & <- & _). reflexivity. Qed.
Lemma leaves_ok lay r l : all_trimmed l -> opt_ok r (some_subs (title_leaves lay r l)) (adds r without_lang l).
Proof.
  intro T. assert (R : related_ok r (title_leaves lay r l) (adds r without_lang l)).
  { repeat split.
    - apply no_list_all. eapply Forall_impl; [|apply (leaves_titled lay r l)]. intros e E. cbn beta. rewrite E. reflexivity.
    - apply filter_all. eapply Forall_impl; [|apply (leaves_titled lay r l)]. intros e E. cbn beta. rewrite E. reflexivity.
    - intro m. apply fold_titles; [exact T|right; reflexivity].
    - intro m. rewrite <- (fold_titles lay [] r l m T (or_introl eq_refl)). apply fold_ext. eapply Forall_impl; [|apply (leaves_titled lay r l)]. intros e E a. apply main_title. exact E. }
  destruct l as [|v l]; [reflexivity|exact R].
Qed.
Definition inside_of (lay : str) (md : metadata) : list xml :=
  let identifier (ref : string) := map (fun v => leaf lay "identifier" [(S_ "analog", humdrum ++ S_ ref)] (v_data v)) (contents ref md) in
  identifier "SCA"%string ++ identifier "SCT"%string ++ identifier "OPS"%string ++ titleElements lay md.
Lemma workList_all lay md : known md -> workList lay md
  = all_works lay (some_subs (title_leaves lay "OPR" (contents "OPR" md))) (some_subs (title_leaves lay "GTL" (contents "GTL" md)))
      (some_subs (title_leaves lay "GAW" (contents "GAW" md))) (some_subs (title_leaves lay "GCO" (contents "GCO" md))) (some_subs (inside_of lay md)).
Proof.
  intro K. unfold workList. cbv zeta. rewrite (known_no_aco md K), app_nil_r, !related_wk. fold (inside_of lay md). unfold all_works. cbv zeta.
  do 4 f_equal. destruct (inside_of lay md); reflexivity.
Qed.
Definition work_adds (md : metadata) : list (str * mtext) :=
  adds "SCA" without_lang (contents "SCA" md) ++ adds "SCT" without_lang (contents "SCT" md) ++ adds "OPS" without_lang (contents "OPS" md) ++ title_adds md.
Definition head_adds (md : metadata) : list (str * mtext) :=
  adds "OPR" without_lang (contents "OPR" md) ++ adds "GTL" without_lang (contents "GTL" md) ++ adds "GCO" without_lang (contents "GCO" md) ++ adds "GAW" without_lang (contents "GAW" md).
Lemma inside_read lay md m : lay = [] \/ layout lay -> texts_ok md -> fold_left main (inside_of lay md) m = fold_left addm (work_adds md) m.
Proof. intros L T. unfold inside_of, work_adds. cbv zeta. rewrite !fold_left_app, !fold_identifiers by apply T. apply fold_titleElements; assumption. Qed.
Lemma inside_names lay md : Forall (fun e => x_name e = S_ "identifier" \/ x_name e = S_ "title") (inside_of lay md).
Proof.
  unfold inside_of, titleElements. cbv zeta. repeat (apply Forall_app; split); try (apply Forall_forall; intros e I; apply in_map_iff in I; destruct I as (v & <- & _); auto; fail).
  - destruct (title_parts lay false md); repeat constructor; right; reflexivity.
  - destruct (title_parts lay true md); repeat constructor; right; reflexivity.
Qed.
Lemma no_adds lay md : inside_of lay md = [] -> work_adds md = [].
Proof.
  unfold inside_of, work_adds, titleElements, title_adds. cbv zeta. intro H.
  repeat match goal with H : _ ++ _ = [] |- _ => apply app_eq_nil in H; destruct H as (? & ?) end.
  repeat match goal with H : map _ _ = [] |- _ => apply map_eq_nil in H; rewrite H end.
  rewrite !parts_nil with (lay := lay); [reflexivity| |];
    repeat match goal with H : match title_parts ?a ?b ?c with _ => _ end = [] |- _ => let E := fresh in destruct (title_parts a b c) eqn:E; [|discriminate H]; clear H end; first [assumption|reflexivity].
Qed.
Lemma works_read lay md : lay = [] \/ layout lay -> known md ->
  exists extra, incl extra (head_adds md) /\
  processWorkList glyph_num glyph_name std std_name (workList lay md) = Some (fold_left addm (head_adds md ++ work_adds md ++ extra) []).
Proof.
  intros L K. pose proof (known_texts md K) as T. rewrite workList_all by exact K.
  destruct (read_works lay (some_subs (title_leaves lay "OPR" (contents "OPR" md))) (some_subs (title_leaves lay "GTL" (contents "GTL" md)))
      (some_subs (title_leaves lay "GAW" (contents "GAW" md))) (some_subs (title_leaves lay "GCO" (contents "GCO" md))) (some_subs (inside_of lay md))
      _ _ _ _ (work_adds md) (leaves_ok lay "OPR" _ (T _)) (leaves_ok lay "GTL" _ (T _)) (leaves_ok lay "GAW" _ (T _)) (leaves_ok lay "GCO" _ (T _))) as (extra & I & E).
  { pose proof (inside_names lay md) as N. destruct (inside_of lay md) as [|x l] eqn:E; [apply (no_adds lay); exact E|]. cbn [some_subs]. rewrite <- E in *. split.
    - apply no_list_all. eapply Forall_impl; [|exact N]. intros e [H|H]; cbn beta; rewrite H; reflexivity.
    - intro m. apply inside_read; assumption. }
  exists extra. split; [exact I|]. rewrite E. unfold head_adds. rewrite <- !app_assoc. reflexivity.
Qed.
(** *** The values that come back *)
Lemma ddup_tags l acc t : In t (map tag (ddup acc l)) <-> In t (map tag acc) \/ In t (map tag l).
Proof.
  revert acc. induction l as [|v l IH]; intro acc; [cbn; tauto|]. cbn [ddup fold_left]. destruct (existsb (fun x => same x v) acc) eqn:E.
  - change (In t (map tag (ddup acc l)) <-> In t (map tag acc) \/ In t (map tag (v :: l))). rewrite IH. apply exists_tag in E. cbn [map In]. split; [tauto|]. intros [H|[<-|H]]; tauto.
  - change (In t (map tag (ddup (acc ++ [v]) l)) <-> In t (map tag acc) \/ In t (map tag (v :: l))). rewrite IH, map_app, in_app_iff. cbn [map In]. tauto.
Qed.
Definition sel (p : str) (l : list (str * mtext)) : list mtext := map snd (filter (fun x => str_eqb (name (fst x)) p) l).
Lemma sel_app p a b : sel p (a ++ b) = sel p a ++ sel p b.
Proof. unfold sel. rewrite filter_app, map_app. reflexivity. Qed.
Lemma sel_adds p r f l : sel p (adds r f l) = if str_eqb (name (humdrum ++ S_ r)) p then map f l else [].
Proof.
  unfold sel, adds. induction l as [|v l IH]; [destruct (str_eqb _ p); reflexivity|]. cbn [map filter fst].
  destruct (str_eqb (name (humdrum ++ S_ r)) p); [cbn [map snd]; rewrite IH; reflexivity|exact IH].
Qed.
Lemma sel_incl p a b : incl a b -> incl (sel p a) (sel p b).
Proof.
  intros I v H. unfold sel in *. apply in_map_iff in H. destruct H as (x & <- & X). apply in_map. apply filter_In in X. apply filter_In. split; [apply I|]; apply X.
Qed.
Lemma values_work p h w extra : incl extra h -> values p (fold_left addm (h ++ w ++ extra) []) = ddup [] (sel p h ++ sel p w).
Proof.
  intro I. rewrite values_fold. fold (sel p (h ++ w ++ extra)). rewrite !sel_app, app_assoc, ddup_app. apply ddup_old.
  intros t T. apply ddup_tags. right. rewrite map_app, in_app_iff. left. eapply incl_map; [apply (sel_incl p _ _ I)|exact T].
Qed.
Lemma parted {A} (f : A -> bool) l : Permutation l (filter (fun x => negb (f x)) l ++ filter f l).
Proof.
  induction l as [|x l IH]; [constructor|]. cbn [filter]. destruct (f x); cbn [negb].
  - apply Permutation_cons_app. exact IH.
  - cbn [app]. constructor. exact IH.
Qed.
Lemma both_new f l : (forall v, tag (f v) = (v_data v, small_lang v)) -> differ l -> ddup [] (map f (original l) ++ map f (translated l)) = map f (original l ++ translated l).
Proof.
  intros F D. rewrite <- map_app. apply (ddup_new _ []). cbn [app]. rewrite map_map. rewrite (map_ext _ _ F). eapply Permutation_NoDup; [|exact D]. apply Permutation_map, parted.
Qed.
Lemma one_new f l : (forall v, tag (f v) = (v_data v, small_lang v)) -> differ l -> ddup [] (map f l) = map f l.
Proof. intros F D. apply (ddup_new _ []). cbn [app]. rewrite map_map. rewrite (map_ext _ _ F). exact D. Qed.
Lemma words_new l : differ_words l -> ddup [] (map without_lang l) = map without_lang l.
Proof.
  intro D. apply (ddup_new _ []). cbn [app]. rewrite map_map. rewrite (map_ext _ (fun v => (v_data v, @None str))) by reflexivity.
  unfold differ_words in D. rewrite <- (map_map v_data (fun d => (d, @None str))). apply FinFun.Injective_map_NoDup; [|exact D]. intros a b E. congruence.
Qed.
Lemma eqb_false l : filter (fun v => Bool.eqb (v_trans v) false) l = original l.
Proof. apply filter_ext. intro v. destruct (v_trans v); reflexivity. Qed.
Lemma eqb_true l : filter (fun v => Bool.eqb (v_trans v) true) l = translated l.
Proof. apply filter_ext. intro v. destruct (v_trans v); reflexivity. Qed.

Ltac names := repeat match goal with |- context [str_eqb (name ?a) ?b] => let x := eval vm_compute in (str_eqb (name a) b) in change (str_eqb (name a) b) with x end; cbv iota.
Definition back (md : metadata) (p : str) : list mtext := ddup [] (sel p (head_adds md) ++ sel p (work_adds md)).
Ltac select K := unfold back, head_adds, work_adds, title_adds, part_adds; cbv zeta; rewrite !sel_app, !sel_adds; names; cbn [app]; rewrite ?app_nil_r, ?eqb_false, ?eqb_true;
  repeat match goal with |- context [contents ?k ?md] => rewrite (known_contents md k _ K) by (repeat (first [left; reflexivity|right])) end.
Lemma back_parts md p : known md -> In p (map S_ ["movementName"; "number"; "movementNumber"; "actNumber"; "sceneNumber"]%string) -> differ (values p md) ->
  back md p = map with_lang (original (values p md) ++ translated (values p md)).
Proof.
  intros K I D. cbn [map In] in I. destruct I as [<-|[<-|[<-|[<-|[<-|[]]]]]]; select K; (apply both_new; [reflexivity|exact D]).
Qed.
Lemma back_others md p : known md -> In p (map S_ ["alternativeTitle"; "popularTitle"]%string) -> differ (values p md) -> back md p = map with_lang (values p md).
Proof. intros K I D. cbn [map In] in I. destruct I as [<-|[<-|[]]]; select K; (apply one_new; [reflexivity|exact D]). Qed.
Lemma back_words md p : known md -> In p (map S_ ["parentTitle"; "groupTitle"; "associatedWork"; "collectionDesignation"; "scholarlyCatalogAbbreviation"; "scholarlyCatalogName"]%string) ->
  differ_words (values p md) -> back md p = map without_lang (values p md).
Proof. intros K I D. cbn [map In] in I. destruct I as [<-|[<-|[<-|[<-|[<-|[<-|[]]]]]]]; select K; (apply words_new; exact D). Qed.
Lemma back_title md : known md -> differ (values (S_ "title") md) -> back md (S_ "title") = map with_both (original (values (S_ "title") md) ++ translated (values (S_ "title") md)).
Proof. intros K D. select K. apply both_new; [reflexivity|exact D]. Qed.
Lemma back_opus md (p := S_ "opusNumber") : known md -> differ_words (values p md) -> Forall (fun v => small_lang v = None) (values p md) -> back md p = map without_lang (values p md).
Proof.
  intros K D N. subst p. select K. rewrite ddup_app, (words_new _ D). apply ddup_old. intros t T. rewrite map_app, in_app_iff in T. rewrite !map_map in *. rewrite !in_map_iff in *.
  rewrite Forall_forall in N.
  destruct T as [(v & <- & V)|(v & <- & V)]; apply filter_In in V; exists v; (split; [unfold tag, with_lang, without_lang; cbn [v_data v_lang]; rewrite (N v (proj1 V)); reflexivity|apply V]).
Qed.
(** *** The short title of the file *)
Local Notation titled := (processTitle glyph_num glyph_name std std_name [] []).
Lemma simple_attr lay md : exists x text, simpleTitle lay md = leaf lay "title" (attr_if (S_ "xml:lang") x) text.
Proof.
  unfold simpleTitle. cbv zeta. destruct (bestName (contents "OTL" md) []) as [t|]; destruct (bestName (contents "OMD" md) _) as [m|]; try (do 2 eexists; reflexivity).
  - destruct (str_eqb (v_data t) (v_data m)); do 2 eexists; reflexivity.
  - exists [], []. reflexivity.
Qed.
Lemma attr_lang x : assoc_str (S_ "xml:lang") (attr_if (S_ "xml:lang") x) = match x with [] => None | _ => Some x end
  /\ x_get (S_ "type") (attr_if (S_ "xml:lang") x) = [] /\ x_get (S_ "analog") (attr_if (S_ "xml:lang") x) = [].
Proof. destruct x; repeat split; reflexivity. Qed.
Lemma read_simple lay x text : std [] = false -> titled (leaf lay "title" (attr_if (S_ "xml:lang") x) text)
  = match strip (keep text) with [] => [] | t => [(S_ "title", MText t (match x with [] => None | _ => Some x end) false)] end.
Proof.
  intro S. unfold processTitle, leaf. cbn [x_subs filter fold_left].
  match goal with |- (let (_, _) := ?x in _) = _ => transitivity (snd x); [destruct x; reflexivity|] end.
  unfold title_text, text_of. cbn [depth map fold_right textFromElem x_subs until cat2 flat_map x_text fst]. rewrite app_nil_r.
  destruct (strip (keep text)) as [|c s]; [reflexivity|]. cbn [x_attrs]. destruct (attr_lang x) as (-> & T & A). unfold title_key. rewrite T, A. unfold usable. rewrite S.
  change (starts_with humdrum [] || false) with false. cbv iota.
  change (str_eqb [] (S_ "alternative")) with false. change (str_eqb [] (S_ "popular")) with false.
  change (mem [] [S_ "movementName"; S_ "number"; S_ "movementNumber"; S_ "opusNumber"; S_ "actNumber"; S_ "sceneNumber"]) with false.
  change (mem [] [[]; S_ "main"; S_ "uniform"]) with true. cbv iota.
  destruct x as [|a x]; cbn [opt_str]; [reflexivity|]. rewrite str_eqb_refl. reflexivity.
Qed.
Lemma file_titles lay md : std [] = false -> Forall (fun x => fst x = S_ "title") (titled (simpleTitle lay md)).
Proof.
  intro S. destruct (simple_attr lay md) as (x & t & ->). rewrite read_simple by exact S. destruct (strip (keep t)); [constructor|]. constructor; [reflexivity|constructor].
Qed.
Lemma values_titles p f : Forall (fun x => fst x = S_ "title") f -> p <> S_ "title" -> values p f = [].
Proof.
  intros F N. unfold values. rewrite filter_none; [reflexivity|]. eapply Forall_impl; [|exact F]. intros x E. cbn beta. rewrite E. apply str_eqb_neq. congruence.
Qed.
Lemma no_values p f : values p f = [] <-> existsb (fun y => str_eqb (fst y) p) f = false.
Proof.
  induction f as [|y f IH]; [split; reflexivity|]. cbn [existsb]. unfold values in *. cbn [filter]. destruct (str_eqb (fst y) p); cbn [orb map]; [split; discriminate|exact IH].
Qed.
Lemma values_not_title p out : values p (filter (fun x => negb (str_eqb (fst x) (S_ "title"))) out) = if str_eqb p (S_ "title") then [] else values p out.
Proof.
  unfold values. induction out as [|x out IH]; [destruct (str_eqb p _); reflexivity|]. cbn [filter]. destruct (str_eqb (fst x) (S_ "title")) eqn:E; cbn [negb].
  - rewrite IH. apply str_eqb_eq in E. destruct (str_eqb p (S_ "title")) eqn:P; [reflexivity|]. rewrite E, str_eqb_sym, P. reflexivity.
  - cbn [filter]. destruct (str_eqb (fst x) p) eqn:F; [|exact IH]. apply str_eqb_eq in F. rewrite <- F in *. cbn [map]. rewrite IH, E. reflexivity.
Qed.
Lemma combine_values file work : Forall (fun x => fst x = S_ "title") file ->
  let titles := match values (S_ "title") work with [] => values (S_ "title") file | t => t end in
  (forall p, p <> S_ "title" -> values p (combine file work) = values p work)
  /\ values (S_ "title") (combine file work) = match titles, values (S_ "movementName") work with [t], [m] => if text_eq t m then [] else titles | _, _ => titles end.
Proof.
  intro F. cbv zeta. unfold combine. cbv zeta. set (out := filter _ file ++ work).
  assert (O : forall p, values p out = if str_eqb p (S_ "title") then match values (S_ "title") work with [] => values (S_ "title") file | t => t end else values p work).
  { intro p. subst out. destruct (values (S_ "title") work) as [|v vs] eqn:E.
    - rewrite filter_all.
      + rewrite values_app. destruct (str_eqb p (S_ "title")) eqn:P; [apply str_eqb_eq in P; subst p; rewrite E; apply app_nil_r|].
        rewrite values_titles by (first [exact F|intro H; rewrite H, str_eqb_refl in P; discriminate]). reflexivity.
      + eapply Forall_impl; [|exact F]. intros x X. cbn beta. rewrite X. apply no_values in E. rewrite E. reflexivity.
    - rewrite filter_none.
      + cbn [app]. destruct (str_eqb p (S_ "title")) eqn:P; [apply str_eqb_eq in P; subst p; exact E|reflexivity].
      + eapply Forall_impl; [|exact F]. intros x X. cbn beta. rewrite X. destruct (existsb (fun y => str_eqb (fst y) (S_ "title")) work) eqn:Y; [reflexivity|]. apply no_values in Y. congruence. }
  pose proof (O (S_ "title")) as OT. rewrite str_eqb_refl in OT. pose proof (O (S_ "movementName")) as OM. change (str_eqb (S_ "movementName") (S_ "title")) with false in OM. cbv iota in OM.
  rewrite OT, OM. set (titles := match values (S_ "title") work with [] => _ | t => t end) in *. clearbody titles out.
  assert (P : forall p, p <> S_ "title" -> str_eqb p (S_ "title") = false) by (intros p N; apply str_eqb_neq; exact N).
  split.
  - intros p N. specialize (O p). rewrite (P p N) in O. destruct titles as [|t [|? ?]]; [exact O| |exact O]. destruct (values (S_ "movementName") work) as [|m [|? ?]]; [exact O| |exact O].
    destruct (text_eq t m); [|exact O]. rewrite values_not_title, (P p N). exact O.
  - destruct titles as [|t [|? ?]]; [exact OT| |exact OT]. destruct (values (S_ "movementName") work) as [|m [|? ?]]; [exact OT| |exact OT].
    destruct (text_eq t m); [|exact OT]. rewrite values_not_title, str_eqb_refl. reflexivity.
Qed.
End Proofs.

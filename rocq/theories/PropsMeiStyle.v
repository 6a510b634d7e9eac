(** Properties of styled texts in MEI: C114 and C115. *)
From Coq Require Import List Ascii String Arith NArith ZArith Lia Bool.
From Verif Require Import PyStr PyStrProofs LayoutModel LayoutProofs ClefModel LyricProofs2 MeiTextModel MeiIdsModel MeiStyleModel PropsMeiText.
Import ListNotations.

(** ** C114: a text of the score keeps its words and its look *)

(** What a reader of the score sees. *)
Definition style_of (o : textobj) : tstyle :=
  match o_style o with Some s => s | None => TStyle None None None [] None None None None None false end.
Definition italic (o : textobj) : Prop := In (t_font (style_of o)) [Some (S_ "italic"); Some (S_ "bolditalic")].
Definition bold (o : textobj) : Prop :=
  t_weight (style_of o) = Some (S_ "bold")
  \/ t_weight (style_of o) = None /\ In (t_font (style_of o)) [Some (S_ "bold"); Some (S_ "bolditalic")].
Inductive place := Above | Below | Between | Unplaced.
Definition side (o : textobj) : option bool :=
  match o_place o with
  | Some p => if str_eqb p (S_ "above") then Some true else if str_eqb p (S_ "below") then Some false else None
  | None => match t_absY (style_of o) with Some y => if (y =? 0)%Z then None else Some (0 <? y)%Z | None => None end
  end.
Definition placed (o : textobj) : place :=
  match side o with
  | Some true => Above
  | Some false => if match t_align (style_of o) with Some a => str_eqb a (S_ "middle") | None => false end then Between else Below
  | None => Unplaced
  end.
Definition shape (o : textobj) : option encl := match t_encl (style_of o) with Some NoEnclosure => None | e => e end.

(** White space that is nothing but the layout of the file, or nothing at all. *)
Definition lay (t : str) : Prop := t = [] \/ layout t.
Definition absent (k : string) (attr : list (str * str)) : Prop := ~ In (S_ k) (map fst attr).
(** A style of the kinds that MEI has: one family, a shape that has a name, values that
    music21 takes. *)
Definition sound (set_size : str -> str) (set_family : str -> list str) (set_justify : str -> option str) (s : tstyle) : Prop :=
  In (t_font s) [None; Some (S_ "normal"); Some (S_ "italic"); Some (S_ "bold"); Some (S_ "bolditalic")]
  /\ In (t_weight s) [None; Some (S_ "normal"); Some (S_ "bold")]
  /\ (forall v, t_size s = Some v -> v <> [] /\ set_size v = v)
  /\ (t_family s = [] \/ exists f, f <> [] /\ t_family s = [f] /\ set_family f = [f])
  /\ (forall v, t_justify s = Some v -> v <> [] /\ set_justify v = Some v)
  /\ (forall v, t_color s = Some v -> v <> [])
  /\ In (t_encl s) [None; Some NoEnclosure; Some Square; Some Circle; Some Diamond; Some Triangle].

Lemma keep_lay t : lay t -> keep t = [].
Proof. intros [->|L]; [reflexivity|]. apply C113_layout. exact L. Qed.
Lemma keep_trimmed t : trimmed t -> keep t = t.
Proof.
  intros T. apply C113_layout. intros ((r & ->) & A). destruct T as (T & _). cbn in T.
  assert (N : is_space newline = true) by reflexivity. cbn in *. congruence.
Qed.
Lemma assoc_if (k k' : str) v r : assoc_str k (attr_if k' v ++ r) = if str_eqb k k' then match v with [] => assoc_str k r | c :: s => Some (c :: s) end else assoc_str k r.
Proof. destruct v; cbn [attr_if app assoc_str]; destruct (str_eqb k k'); reflexivity. Qed.
Ltac eqbs := repeat match goal with |- context [str_eqb (S_ ?x) (S_ ?y)] => let b := eval vm_compute in (str_eqb (S_ x) (S_ y)) in change (str_eqb (S_ x) (S_ y)) with b end; cbv iota.
Lemma opt_nil (v : str) : match (match v with [] => None | c :: s => Some (c :: s) end) with Some x => x | None => [] end = v.
Proof. destruct v; reflexivity. Qed.
Lemma attr_if_nil k v r : attr_if k v = attr_if k v ++ r -> r = [].
Proof. intro H. apply (f_equal (@length _)) in H. rewrite app_length in H. destruct r; [reflexivity|cbn in H; lia]. Qed.

(** The attributes of `rend`, one by one. *)
Lemma rend_get s : let a := rend_attrs s in let f := m21FontStyleAndWeightToMei (t_font s) (t_weight s) in
  x_get (S_ "fontstyle") a = fst f /\ x_get (S_ "fontweight") a = snd f /\ x_get (S_ "fontsize") a = opt_str (t_size s)
  /\ x_get (S_ "fontfam") a = hd [] (t_family s) /\ x_get (S_ "halign") a = opt_str (t_justify s) /\ x_get (S_ "color") a = opt_str (t_color s)
  /\ x_get (S_ "rend") a = match t_encl s with Some e => m21EnclosureToMeiRend e | None => [] end.
Proof.
  cbv zeta. unfold rend_attrs. destruct (m21FontStyleAndWeightToMei _ _) as [fs fw]. cbn [fst snd].
  set (r := match t_encl s with Some e => _ | None => _ end). clearbody r. unfold x_get. rewrite <- (app_nil_r (attr_if (S_ "rend") r)).
  repeat split; repeat (rewrite assoc_if; eqbs); cbn [assoc_str]; apply opt_nil.
Qed.

Lemma sget_style a : sget "fontStyle" (rend_style a) = x_get (S_ "fontstyle") a /\ sget "fontWeight" (rend_style a) = x_get (S_ "fontweight") a
  /\ sget "fontSize" (rend_style a) = x_get (S_ "fontsize") a /\ sget "fontFamily" (rend_style a) = x_get (S_ "fontfam") a
  /\ sget "justify" (rend_style a) = x_get (S_ "halign") a /\ sget "color" (rend_style a) = x_get (S_ "color") a
  /\ sget "enclosure" (rend_style a) = if mem (x_get (S_ "rend") a) [S_ "box"; S_ "circle"; S_ "dbox"; S_ "tbox"] then x_get (S_ "rend") a else [].
Proof.
  unfold sget, opt_str, rend_style. cbv beta zeta.
  rewrite !d_get_app, !d_get_one, !d_get_if. eqbs. repeat split; try (destruct (x_get _ a); reflexivity).
  destruct (mem _ _); reflexivity.
Qed.

Lemma read_emitted gn gm lay1 lay2 tail tag attr text st : lay lay1 -> lay lay2 -> trimmed text ->
  text_of gn gm [] (emitStyledTextElement lay1 lay2 tail text st tag attr)
  = (text, match st with Some s => rend_style (rend_attrs s) | None => [] end).
Proof.
  intros L1 L2 T. apply keep_lay in L1, L2. apply keep_trimmed in T.
  assert (P : text_of gn gm [] (El tag attr text [] tail) = (text, [])).
  { unfold text_of. cbn [depth map fold_right textFromElem x_subs until cat2 flat_map x_text]. rewrite T, app_nil_r. reflexivity. }
  unfold emitStyledTextElement. destruct st as [s|]; [|exact P]. destruct (rend_attrs s) as [|x ra] eqn:E; [rewrite P; reflexivity|].
  change (text_of gn gm [] (El tag attr lay1 [El (S_ "rend") (x :: ra) text [] lay2] tail))
    with (keep lay1 ++ flat_map fst [([] ++ (keep text ++ []) ++ keep lay2, rend_style (x :: ra) ++ [])],
          flat_map snd [([] ++ (keep text ++ []) ++ keep lay2, rend_style (x :: ra) ++ [])]).
  rewrite L1, L2, T. cbn [flat_map fst snd app]. rewrite !app_nil_r. reflexivity.
Qed.
Lemma emitted_attrs lay1 lay2 tail tag attr text st : x_attrs (emitStyledTextElement lay1 lay2 tail text st tag attr) = attr.
Proof. unfold emitStyledTextElement. destruct st as [s|]; [destruct (rend_attrs s)|]; reflexivity. Qed.

Lemma x_get_absent k a r : ~ In k (map fst a) -> x_get k (a ++ r) = x_get k r.
Proof.
  unfold x_get. induction a as [|[x y] a IH]; intro N; [reflexivity|]. cbn [app assoc_str]. destruct (str_eqb k x) eqn:E.
  - apply str_eqb_eq in E. subst. exfalso. apply N. left. reflexivity.
  - apply IH. intro H. apply N. right. exact H.
Qed.
Lemma stylistic_get o : x_get (S_ "enclose") (stylisticAttributes o) = [] /\ x_get (S_ "place") (stylisticAttributes o) = m21PlacementToMei o.
Proof.
  unfold stylisticAttributes, x_get. rewrite !assoc_if. eqbs.
  assert (K : forall k, str_eqb k (S_ "visible") = false -> str_eqb k (S_ "color") = false ->
    assoc_str k (match o_style o with Some s => (if t_hide s then [(S_ "visible", S_ "false")] else []) ++ attr_if (S_ "color") (opt_str (t_color s)) | None => [] end) = None).
  { intros k V C. destruct (o_style o) as [s|]; [|reflexivity].
    assert (A : assoc_str k (attr_if (S_ "color") (opt_str (t_color s))) = None) by (destruct (opt_str (t_color s)); cbn [attr_if assoc_str]; rewrite ?C; reflexivity).
    destruct (t_hide s); cbn [app assoc_str]; rewrite ?V; exact A. }
  rewrite !K by reflexivity. split; [reflexivity|]. destruct (m21PlacementToMei o); reflexivity.
Qed.

(** How the reader sees the place that the writer names. *)
Lemma place_read o : let p := m21PlacementToMei o in
  (if str_eqb p (S_ "above") then Some (S_ "above") else if str_eqb p (S_ "below") || str_eqb p (S_ "between") then Some (S_ "below") else None,
   str_eqb p (S_ "between"))
  = match placed o with Above => (Some (S_ "above"), false) | Below => (Some (S_ "below"), false) | Between => (Some (S_ "below"), true) | Unplaced => (None, false) end.
Proof.
  cbv zeta. unfold m21PlacementToMei, placed, side, style_of.
  assert (A : match o_style o with Some s => opt_str (t_align s) | None => [] end = opt_str (t_align (style_of o))) by (unfold style_of; destruct (o_style o); reflexivity).
  rewrite A. unfold style_of in *. set (st := match o_style o with Some s => s | None => _ end) in *.
  assert (B : str_eqb (opt_str (t_align st)) (S_ "middle") = match t_align st with Some a => str_eqb a (S_ "middle") | None => false end) by (destruct (t_align st); reflexivity).
  rewrite B. set (m := match t_align st with Some a => _ | None => _ end). clearbody m. clear A B.
  assert (Y : match o_style o with Some s => match t_absY s with Some y => if (0 <? y)%Z then S_ "above" else if (y <? 0)%Z then S_ "below" else [] | None => [] end | None => [] end
            = match t_absY st with Some y => if (0 <? y)%Z then S_ "above" else if (y <? 0)%Z then S_ "below" else [] | None => [] end) by (unfold st; destruct (o_style o); reflexivity).
  destruct (o_place o) as [p|].
  - destruct (str_eqb p (S_ "above")) eqn:E1; [apply str_eqb_eq in E1; subst p; destruct m; reflexivity|].
    destruct (str_eqb p (S_ "below")) eqn:E2; [apply str_eqb_eq in E2; subst p; destruct m; reflexivity|].
    cbn [andb mem existsb]. rewrite E1, E2. cbn [orb]. reflexivity.
  - rewrite Y. destruct (t_absY st) as [y|]; [|destruct m; reflexivity]. destruct y; cbn; destruct m; reflexivity.
Qed.

Theorem C114_text_partial : forall html gn gm set_size set_family set_justify lay1 lay2 tail tag attr o,
  html_ok html -> lay lay1 -> lay lay2 -> absent "enclose" attr -> absent "place" attr ->
  trimmed (o_text o) -> ~ In "&"%char (o_text o) -> sound set_size set_family set_justify (style_of o) ->
  exists o', dirFromElement html gn gm set_size set_family set_justify (write_text lay1 lay2 tail tag attr o) = Some o'
    /\ o_text o' = o_text o
    /\ (italic o' <-> italic o) /\ (bold o' <-> bold o)
    /\ t_size (style_of o') = t_size (style_of o) /\ t_family (style_of o') = t_family (style_of o)
    /\ t_justify (style_of o') = t_justify (style_of o) /\ t_color (style_of o') = t_color (style_of o)
    /\ shape o' = shape o /\ placed o' = placed o.
Proof.
  intros html gn gm set_size set_family set_justify lay1 lay2 tail tag attr o H L1 L2 NE NP T NA (F & W & SZ & FA & J & C & EN).
  unfold dirFromElement, write_text. rewrite read_emitted by assumption. rewrite emitted_attrs.
  unfold absent in *. rewrite !x_get_absent by assumption. destruct (stylistic_get o) as (G1 & G2). rewrite G1, G2.
  rewrite H by exact NA. rewrite strip_trimmed by exact T.
  change (enclosed [] (o_text o)) with (o_text o).
  (* the styles *)
  set (d := match o_style o with Some s => rend_style (rend_attrs s) | None => [] end).
  assert (D : d = rend_style (rend_attrs (style_of o))) by (unfold d, style_of; destruct (o_style o); reflexivity).
  rewrite D. clearbody d. clear D d.
  pose proof (sget_style (rend_attrs (style_of o))) as (S1 & S2 & S3 & S4 & S5 & S6 & S7).
  pose proof (rend_get (style_of o)) as R. cbv zeta in R. destruct R as (R1 & R2 & R3 & R4 & R5 & R6 & R7).
  rewrite S1, S2, S3, S4, S5, S6, S7, R1, R2, R3, R4, R5, R6, R7. clear S1 S2 S3 S4 S5 S6 S7 R1 R2 R3 R4 R5 R6 R7.
  pose proof (place_read o) as PR. cbv zeta in PR. pose proof (f_equal fst PR) as P1. pose proof (f_equal snd PR) as P2. cbn [fst snd] in P1, P2. clear PR.
  unfold textExpressionFromPieces.
  assert (JJ : match opt_str (t_justify (style_of o)) with [] => Some None | c :: s => option_map Some (set_justify (c :: s)) end = Some (t_justify (style_of o))).
  { destruct (t_justify (style_of o)) as [v|]; [|reflexivity]. destruct (J v eq_refl) as (V & K). cbn [opt_str]. destruct v; [contradiction|]. rewrite K. reflexivity. }
  rewrite JJ. eexists. split; [reflexivity|]. cbv zeta. rewrite P1, P2. clear P1 P2 JJ G1 G2.
  split; [reflexivity|].
  set (st := style_of o) in *.
  assert (FW : forall ff, ff = match fst (m21FontStyleAndWeightToMei (t_font st) (t_weight st)) with
                            | [] => match snd (m21FontStyleAndWeightToMei (t_font st) (t_weight st)) with [] => None | _ :: _ => Some (meiFontStyleAndWeightToM21FontStyle (fst (m21FontStyleAndWeightToMei (t_font st) (t_weight st))) (snd (m21FontStyleAndWeightToMei (t_font st) (t_weight st)))) end
                            | _ :: _ => Some (meiFontStyleAndWeightToM21FontStyle (fst (m21FontStyleAndWeightToMei (t_font st) (t_weight st))) (snd (m21FontStyleAndWeightToMei (t_font st) (t_weight st)))) end ->
            (In ff [Some (S_ "italic"); Some (S_ "bolditalic")] <-> In (t_font st) [Some (S_ "italic"); Some (S_ "bolditalic")])
            /\ (In ff [Some (S_ "bold"); Some (S_ "bolditalic")] <-> t_weight st = Some (S_ "bold") \/ t_weight st = None /\ In (t_font st) [Some (S_ "bold"); Some (S_ "bolditalic")])).
  { intros ff ->. cbn [In] in F, W.
    destruct F as [A|[A|[A|[A|[A|[]]]]]]; destruct W as [B|[B|[B|[]]]]; rewrite <- A, <- B; vm_compute; intuition discriminate. }
  specialize (FW _ eq_refl). destruct FW as (FI & FB).
  split; [exact FI|]. split; [transitivity (t_weight st = Some (S_ "bold") \/ t_weight st = None /\ In (t_font st) [Some (S_ "bold"); Some (S_ "bolditalic")]); [|reflexivity]; rewrite <- FB; unfold bold, style_of at 1 2 3; cbn [o_style t_weight t_font]; split; [intros [K|(_ & K)]; [discriminate|exact K]|intro K; right; split; [reflexivity|exact K]]|].
  unfold style_of. cbn [o_style t_size t_family t_justify t_color].
  split; [destruct (t_size st) as [v|]; [|reflexivity]; destruct (SZ v eq_refl) as (V & K); cbn [opt_str]; destruct v; [contradiction|]; rewrite K; reflexivity|].
  split; [destruct FA as [->|(f & N & -> & K)]; [reflexivity|]; cbn [hd]; destruct f; [contradiction|exact K]|].
  split; [reflexivity|].
  split; [destruct (t_color st) as [v|] eqn:E; [|reflexivity]; pose proof (C v eq_refl) as V; cbn [opt_str]; destruct v; [contradiction|reflexivity]|].
  split.
  - unfold shape. fold st. unfold style_of. cbn [o_style t_encl]. cbn [In] in EN. destruct EN as [A|[A|[A|[A|[A|[A|[]]]]]]]; rewrite <- A; reflexivity.
  - unfold placed at 1, side, style_of. cbn [o_place o_style t_align t_absY]. destruct (placed o); reflexivity.
Qed.
Print Assumptions C114_text_partial.

(** music21's setters, for the examples: the size is kept, families are separated by
    commas, four justifications are known. *)
Definition fam_split (s : str) : list str := map strip (split_char "," s).
Definition just_set (s : str) : option str := if mem s [S_ "left"; S_ "center"; S_ "right"; S_ "full"] then Some s else None.
Definition read_ex (html : str -> str) : xml -> option textobj := dirFromElement html (fun _ => []) (fun _ => []) (fun s => s) fam_split just_set.
Definition plain : tstyle := TStyle None None None [] None None None None None false.

Example C114_nonvacuous :
  let st := TStyle (Some (S_ "bolditalic")) (Some (S_ "normal")) (Some (S_ "12")) [S_ "Times"] (Some (S_ "left")) (Some (S_ "red")) (Some Diamond) (Some (S_ "middle")) (Some (-80)%Z) false in
  let o := TextObj (S_ "poco a poco") None (Some st) in
  sound (fun s => s) fam_split just_set st /\ trimmed (o_text o)
  /\ read_ex (fun s => s) (write_text nl nl nl (S_ "dir") [(S_ "tstamp", S_ "1")] o)
     = Some (TextObj (S_ "poco a poco") (Some (S_ "below"))
         (Some (TStyle (Some (S_ "italic")) None (Some (S_ "12")) [S_ "Times"] (Some (S_ "left")) (Some (S_ "red")) (Some Diamond) (Some (S_ "middle")) None false)))
  /\ placed o = Between.
Proof.
  cbv zeta. split; [|split; [split; reflexivity|split; vm_compute; reflexivity]].
  unfold sound. cbn [t_font t_weight t_size t_family t_justify t_color t_encl]. split; [vm_compute; tauto|]. split; [vm_compute; tauto|].
  split; [intros v E; injection E as <-; split; [discriminate|reflexivity]|].
  split; [right; exists (S_ "Times"); split; [discriminate|]; split; reflexivity|].
  split; [intros v E; injection E as <-; split; [discriminate|reflexivity]|].
  split; [intros v E; injection E as <-; discriminate|vm_compute; tauto].
Qed.

(** *** Where it fails *)

(** A hidden text is shown: `visible` is written but not read. *)
Theorem C114_hidden_refuted : exists o, t_hide (style_of o) = true /\ sound (fun s => s) fam_split just_set (style_of o) /\
  exists o', read_ex (fun s => s) (write_text [] [] [] (S_ "dir") [] o) = Some o' /\ t_hide (style_of o') = false.
Proof.
  exists (TextObj (S_ "solo") None (Some (TStyle None None None [] None None None None None true))). split; [reflexivity|].
  split; [|eexists; split; [vm_compute; reflexivity|reflexivity]].
  unfold sound. cbn. repeat split; try tauto; intros; discriminate.
Qed.
Print Assumptions C114_hidden_refuted.

(** Shapes: an oval becomes a circle, a rectangle is lost. *)
Theorem C114_shape_refuted : exists o1 o2, shape o1 = Some Oval /\ shape o2 = Some Rectangle /\
  exists o1' o2', read_ex (fun s => s) (write_text [] [] [] (S_ "dir") [] o1) = Some o1' /\ shape o1' = Some Circle
    /\ read_ex (fun s => s) (write_text [] [] [] (S_ "dir") [] o2) = Some o2' /\ shape o2' = None.
Proof.
  exists (TextObj (S_ "A") None (Some (TStyle None None None [] None None (Some Oval) None None false))),
         (TextObj (S_ "A") None (Some (TStyle None None None [] None None (Some Rectangle) None None false))).
  split; [reflexivity|]. split; [reflexivity|]. do 2 eexists. split; [vm_compute; reflexivity|]. split; [reflexivity|]. split; [vm_compute; reflexivity|reflexivity].
Qed.
Print Assumptions C114_shape_refuted.

(** Of several families only the first is kept. *)
Theorem C114_family_refuted : exists o, t_family (style_of o) = [S_ "Optima"; S_ "serif"] /\
  exists o', read_ex (fun s => s) (write_text [] [] [] (S_ "dir") [] o) = Some o' /\ t_family (style_of o') = [S_ "Optima"].
Proof.
  exists (TextObj (S_ "solo") None (Some (TStyle None None None [S_ "Optima"; S_ "serif"] None None None None None false))).
  split; [reflexivity|]. eexists. split; [vm_compute; reflexivity|reflexivity].
Qed.
Print Assumptions C114_family_refuted.

(** Texts are unescaped once more after the XML parser has done it; spaces at the ends
    are lost. *)
Theorem C114_words_refuted : exists o1 o2, forall html, html (S_ "&lt;A&gt;") = S_ "<A>" -> html (S_ "solo ") = S_ "solo " ->
  exists o1' o2', read_ex html (write_text [] [] [] (S_ "dir") [] o1) = Some o1' /\ o_text o1 = S_ "&lt;A&gt;" /\ o_text o1' = S_ "<A>"
    /\ read_ex html (write_text [] [] [] (S_ "dir") [] o2) = Some o2' /\ o_text o2 = S_ "solo " /\ o_text o2' = S_ "solo".
Proof.
  exists (TextObj (S_ "&lt;A&gt;") None None), (TextObj (S_ "solo ") None None). intros html H1 H2.
  do 2 eexists. split; [unfold read_ex, dirFromElement; cbn; unfold S_ in H1; cbn in H1; rewrite H1; reflexivity|]. split; [reflexivity|]. split; [reflexivity|].
  split; [unfold read_ex, dirFromElement; cbn; unfold S_ in H2; cbn in H2; rewrite H2; reflexivity|]. split; reflexivity.
Qed.
Print Assumptions C114_words_refuted.

(** An alignment that music21 refuses stops the import; MEI has `justify`. *)
Theorem C114_justify_refuted : exists e, x_name e = S_ "dir" /\
  forall html gn gm set_size set_family set_justify, set_justify (S_ "justify") = None -> dirFromElement html gn gm set_size set_family set_justify e = None.
Proof.
  exists (El (S_ "dir") [] [] [El (S_ "rend") [(S_ "halign", S_ "justify")] (S_ "solo") [] []] []). split; [reflexivity|].
  intros html gn gm set_size set_family set_justify J. unfold dirFromElement. cbn. unfold textExpressionFromPieces. unfold S_ in J. cbn in J. rewrite J. reflexivity.
Qed.
Print Assumptions C114_justify_refuted.

(** ** C115: a text that names a note is read like one with a time stamp *)

(** The element names the note. *)
Definition names (id : str) (e : xml) : Prop :=
  x_get (S_ "startid") (x_attrs e) = id \/ x_get (S_ "startid") (x_attrs e) = "#"%char :: id.
(** The one element of the list that names the note, if there is one. *)
Definition only (id : str) (l : list xml) (x : option xml) : Prop :=
  match x with
  | None => Forall (fun e => ~ names id e) l
  | Some e => exists pre post, l = pre ++ e :: post /\ names id e /\ Forall (fun e => ~ names id e) (pre ++ post)
  end.

Section ById.
Context (html glyph_num glyph_name set_size : str -> str) (set_family : str -> list str) (set_justify : str -> option str).
Local Notation read := (dirFromElement html glyph_num glyph_name set_size set_family set_justify).
Local Notation txt e := (text_of glyph_num glyph_name [] e).
Local Notation one k e := (pp_one html glyph_num glyph_name k e).

(** What the reader copes with: a text of its own, without size and colour; no
    fingering. *)
Definition clear (k : tkind) (e : xml) : Prop :=
  strip (html (fst (txt e))) <> [] /\ d_get (S_ "fontSize") (snd (txt e)) = None /\ d_get (S_ "color") (snd (txt e)) = None
  /\ (k = KDir -> x_get (S_ "type") (x_attrs e) <> S_ "fingering").
(** The object of the note that comes from the element. *)
Definition gives (k : tkind) (x : option xml) (os : list (tkind * textobj)) : Prop :=
  match x with None => os = [] | Some e => clear k e /\ exists o, read e = Some o /\ os = [(k, o)] end.

Lemma octothorpe id s : id <> [] -> hd_error id <> Some "#"%char -> (removeOctothorpe s = id <-> s = id \/ s = "#"%char :: id).
Proof.
  intros N H. destruct s as [|c s]; cbn [removeOctothorpe]; [split; [intros <-; contradiction|intros [<-|K]; [contradiction|discriminate]]|].
  destruct (Ascii.eqb c "#") eqn:E; [apply Ascii.eqb_eq in E; subst c|apply Ascii.eqb_neq in E].
  - split; [intros ->; right; reflexivity|]. intros [<-|K]; [exfalso; apply H; reflexivity|injection K as ->; reflexivity].
  - split; [intros ->; left; reflexivity|]. intros [K|K]; [exact K|injection K as K _; contradiction].
Qed.
Definition put (k : tkind) (id : str) (l : list xml) : list (str * str) :=
  attrs_of id (flat_map (fun e => match one k e with Some x => [x] | None => [] end) l).
Lemma attrs_of_app id x y : attrs_of id (x ++ y) = attrs_of id x ++ attrs_of id y.
Proof. apply flat_map_app. Qed.
Lemma put_app k id x y : put k id (x ++ y) = put k id x ++ put k id y.
Proof. unfold put. rewrite flat_map_app. apply attrs_of_app. Qed.
Lemma one_id k e id l : one k e = Some (id, l) -> removeOctothorpe (x_get (S_ "startid") (x_attrs e)) = id /\ id <> [].
Proof.
  unfold pp_one. destruct (match k with KDir => _ | _ => _ end); [discriminate|]. destruct (removeOctothorpe _) as [|c s]; [discriminate|].
  destruct (txt e) as [t d]. destruct (strip (html t)); [discriminate|]. intro H. injection H as <- _. split; [reflexivity|discriminate].
Qed.
Lemma put_none k id l : id <> [] -> hd_error id <> Some "#"%char -> Forall (fun e => ~ names id e) l -> put k id l = [].
Proof.
  intros N H F. induction F as [|e l E F IH]; [reflexivity|]. change (put k id ([e] ++ l) = []). rewrite put_app, IH, app_nil_r.
  unfold put. cbn [flat_map]. destruct (one k e) as [[i a]|] eqn:O; [|reflexivity]. cbn. destruct (str_eqb i id) eqn:Q; [|reflexivity].
  apply str_eqb_eq in Q. subst i. apply one_id in O. destruct O as (O & _). apply (octothorpe id _ N H) in O. contradiction.
Qed.
(** What the element puts on its note, attribute by attribute. *)
Definition stash (n : str) (k : tkind) (e : xml) : list (str * str) :=
  [(n, enclosed (x_get (S_ "enclose") (x_attrs e)) (strip (html (fst (txt e)))))]
  ++ attr_if (n ++ S_ "Place") (x_get (S_ "place") (x_attrs e))
  ++ attr_if (n ++ S_ "Staff") (x_get (S_ "staff") (x_attrs e))
  ++ attr_if (n ++ S_ "MidiBPM") (match k with KTempo => x_get (S_ "midi.bpm") (x_attrs e) | _ => [] end)
  ++ attr_if (n ++ S_ "FontStyle") (sget "fontStyle" (snd (txt e)))
  ++ attr_if (n ++ S_ "FontWeight") (sget "fontWeight" (snd (txt e)))
  ++ attr_if (n ++ S_ "FontFamily") (sget "fontFamily" (snd (txt e)))
  ++ attr_if (n ++ S_ "Justify") (sget "justify" (snd (txt e)))
  ++ attr_if (n ++ S_ "Enclosure") (sget "enclosure" (snd (txt e))).
Lemma put_only k id l x : id <> [] -> hd_error id <> Some "#"%char -> only id l x ->
  match x with None => True | Some e => clear k e end ->
  put k id l = match x with None => [] | Some e => stash (pp_name k) k e end.
Proof.
  intros N H O C. destruct x as [e|]; [|apply put_none; assumption]. destruct O as (pre & post & -> & NM & F). apply Forall_app in F. destruct F as (F1 & F2).
  change (e :: post) with ([e] ++ post). rewrite !put_app, (put_none k id pre N H F1), (put_none k id post N H F2), app_nil_r. cbn [app].
  unfold put. cbn [flat_map]. destruct C as (C1 & _ & _ & C4). apply (octothorpe id _ N H) in NM.
  unfold pp_one, stash. rewrite NM. destruct (txt e) as [t d]. cbn [fst snd] in *.
  assert (FG : match k with KDir => str_eqb (x_get (S_ "type") (x_attrs e)) (S_ "fingering") | _ => false end = false).
  { destruct k; [apply str_eqb_neq, C4; reflexivity|reflexivity|reflexivity]. }
  rewrite FG. destruct id as [|c0 id0]; [contradiction|]. destruct (strip (html t)) as [|c1 s1] eqn:E; [contradiction|].
  cbn [flat_map attrs_of app fst snd]. rewrite app_nil_r. unfold attrs_of. cbn [flat_map fst snd].
  assert (R : str_eqb (c0 :: id0) (c0 :: id0) = true) by (apply str_eqb_eq; reflexivity). rewrite R. reflexivity.
Qed.

Lemma d_get_if' k key v : d_get k (attr_if key v) = if str_eqb k key then match v with [] => None | c :: s => Some (c :: s) end else None.
Proof. apply d_get_one. Qed.
Lemma d_get_single k key v : d_get k [(key, v)] = if str_eqb k key then Some v else None.
Proof. reflexivity. Qed.
Lemma enclosed_ne x t : t <> [] -> enclosed x t <> [].
Proof. intro N. unfold enclosed. destruct (str_eqb _ _); [discriminate|]. destruct (str_eqb _ _); [discriminate|exact N]. Qed.

Ltac eqbs2 := repeat match goal with |- context [str_eqb ?x ?y] => let b := eval vm_compute in (str_eqb x y) in match b with true => change (str_eqb x y) with true | false => change (str_eqb x y) with false end end; cbv iota.

(** The stash of one element, read with its own name, and with the other. *)
Definition none_of (n : str) (a : list (str * str)) : Prop :=
  forall s, In s [[]; S_ "FontStyle"; S_ "FontWeight"; S_ "FontSize"; S_ "FontFamily"; S_ "Color"; S_ "Justify"; S_ "Enclosure"; S_ "Place"] -> d_get (n ++ s) a = None.
Lemma other_none n m k e : (n, m) = (S_ "m21Dir", S_ "m21Dynam") \/ (n, m) = (S_ "m21Dynam", S_ "m21Dir") \/ n = S_ "m21Tempo" /\ (m = S_ "m21Dir" \/ m = S_ "m21Dynam") ->
  none_of n (stash m k e).
Proof.
  intros C s I. unfold stash. rewrite !d_get_app, !d_get_if', d_get_single.
  assert (K : forall z, In z [[]; S_ "Place"; S_ "Staff"; S_ "MidiBPM"; S_ "FontStyle"; S_ "FontWeight"; S_ "FontFamily"; S_ "Justify"; S_ "Enclosure"] -> str_eqb (n ++ s) (m ++ z) = false).
  { intros z Z. cbn [In] in I, Z. destruct C as [C|[C|(-> & [->| ->])]]; [injection C as -> ->|injection C as -> ->|..];
      repeat (destruct I as [<-|I]; [repeat (destruct Z as [<-|Z]; [reflexivity|]); destruct Z|]); destruct I. }
  pose proof (K [] (or_introl eq_refl)) as K0. rewrite app_nil_r in K0. rewrite K0, !K by (cbn; tauto). reflexivity.
Qed.
Lemma own_text n k e a : In n [S_ "m21Dir"; S_ "m21Dynam"] -> clear k e -> (a = [] \/ none_of n a) ->
  opt_str (d_get n (stash n k e ++ a)) <> [] /\ opt_str (d_get n (a ++ stash n k e)) <> []
  /\ text_with set_size set_family set_justify n (stash n k e ++ a) = read e /\ text_with set_size set_family set_justify n (a ++ stash n k e) = read e.
Proof.
  intros I (C1 & C2 & C3 & _) A.
  assert (Z : none_of n a) by (destruct A as [->|A]; [intros s _; reflexivity|exact A]). clear A.
  assert (D : forall s, In s [[]; S_ "FontStyle"; S_ "FontWeight"; S_ "FontSize"; S_ "FontFamily"; S_ "Color"; S_ "Justify"; S_ "Enclosure"; S_ "Place"] ->
     d_get (n ++ s) (stash n k e ++ a) = d_get (n ++ s) (stash n k e) /\ d_get (n ++ s) (a ++ stash n k e) = d_get (n ++ s) (stash n k e)).
  { intros s S1. rewrite !d_get_app, (Z s S1). split; [reflexivity|]. destruct (d_get (n ++ s) (stash n k e)); reflexivity. }
  assert (T0 : d_get (n ++ []) (stash n k e) = Some (enclosed (x_get (S_ "enclose") (x_attrs e)) (strip (html (fst (txt e)))))).
  { unfold stash. rewrite !d_get_app, !d_get_if', d_get_single. cbn [In] in I. destruct I as [<-|[<-|[]]]; eqbs2; reflexivity. }
  assert (V : forall s v, In (s, v) [(S_ "FontStyle", sget "fontStyle" (snd (txt e))); (S_ "FontWeight", sget "fontWeight" (snd (txt e))); (S_ "FontSize", []); (S_ "FontFamily", sget "fontFamily" (snd (txt e)));
      (S_ "Color", []); (S_ "Justify", sget "justify" (snd (txt e))); (S_ "Enclosure", sget "enclosure" (snd (txt e))); (S_ "Place", x_get (S_ "place") (x_attrs e))] -> opt_str (d_get (n ++ s) (stash n k e)) = v).
  { intros s v SV. unfold stash. rewrite !d_get_app, !d_get_if', d_get_single. cbn [In] in I.
    set (pl := x_get (S_ "place") (x_attrs e)) in *. clearbody pl.
    destruct I as [<-|[<-|[]]]; repeat (destruct SV as [E|SV]; [injection E as <- <-; eqbs2; try reflexivity; match goal with |- context [match ?x with [] => _ | _ :: _ => _ end] => destruct x; reflexivity end|]); destruct SV. }
  pose proof (D [] (or_introl eq_refl)) as (D1 & D2). rewrite app_nil_r in D1, D2, T0. rewrite T0 in D1, D2.
  split; [rewrite D1; apply enclosed_ne, C1|]. split; [rewrite D2; apply enclosed_ne, C1|].
  assert (RD : read e = textExpressionFromPieces set_size set_family set_justify (enclosed (x_get (S_ "enclose") (x_attrs e)) (strip (html (fst (txt e)))))
     (sget "fontStyle" (snd (txt e))) (sget "fontWeight" (snd (txt e))) [] (sget "fontFamily" (snd (txt e))) [] (sget "justify" (snd (txt e))) (sget "enclosure" (snd (txt e))) (x_get (S_ "place") (x_attrs e))).
  { unfold dirFromElement. destruct (txt e) as [t d]. cbn [fst snd] in *. unfold sget at 3 5. rewrite C2, C3. reflexivity. }
  rewrite RD. unfold text_with. rewrite app_nil_r, D1, D2.
  split; rewrite ?(proj1 (D (S_ "FontStyle") ltac:(cbn; tauto))), ?(proj1 (D (S_ "FontWeight") ltac:(cbn; tauto))), ?(proj1 (D (S_ "FontSize") ltac:(cbn; tauto))), ?(proj1 (D (S_ "FontFamily") ltac:(cbn; tauto))),
    ?(proj1 (D (S_ "Color") ltac:(cbn; tauto))), ?(proj1 (D (S_ "Justify") ltac:(cbn; tauto))), ?(proj1 (D (S_ "Enclosure") ltac:(cbn; tauto))), ?(proj1 (D (S_ "Place") ltac:(cbn; tauto))),
    ?(proj2 (D (S_ "FontStyle") ltac:(cbn; tauto))), ?(proj2 (D (S_ "FontWeight") ltac:(cbn; tauto))), ?(proj2 (D (S_ "FontSize") ltac:(cbn; tauto))), ?(proj2 (D (S_ "FontFamily") ltac:(cbn; tauto))),
    ?(proj2 (D (S_ "Color") ltac:(cbn; tauto))), ?(proj2 (D (S_ "Justify") ltac:(cbn; tauto))), ?(proj2 (D (S_ "Enclosure") ltac:(cbn; tauto))), ?(proj2 (D (S_ "Place") ltac:(cbn; tauto)));
    rewrite (V (S_ "FontStyle") _ ltac:(cbn; tauto)), (V (S_ "FontWeight") _ ltac:(cbn; tauto)), (V (S_ "FontSize") _ ltac:(cbn; tauto)), (V (S_ "FontFamily") _ ltac:(cbn; tauto)),
      (V (S_ "Color") _ ltac:(cbn; tauto)), (V (S_ "Justify") _ ltac:(cbn; tauto)), (V (S_ "Enclosure") _ ltac:(cbn; tauto)), (V (S_ "Place") _ ltac:(cbn; tauto)); reflexivity.
Qed.
End ById.

(** With at most one direction, at most one dynamic and no tempo naming the note, the
    note gets the same objects that the elements would give with a time stamp. *)
Theorem C115_by_id_partial : forall html gn gm set_size set_family set_justify dirs dynams tempos id dx nx ds ns,
  id <> [] -> hd_error id <> Some "#"%char ->
  only id dirs dx -> only id dynams nx -> only id tempos None ->
  gives html gn gm set_size set_family set_justify KDir dx ds ->
  gives html gn gm set_size set_family set_justify KDynam nx ns ->
  texts_of_note html gn gm set_size set_family set_justify dirs dynams tempos id = Some (ds ++ ns).
Proof.
  intros html gn gm set_size set_family set_justify dirs dynams tempos id dx nx ds ns N H OD ON OT GD GN.
  assert (P : attrs_of id (ppDirsDynamsTempos html gn gm dirs dynams tempos)
    = match dx with None => [] | Some e => stash html gn gm (S_ "m21Dir") KDir e end ++ match nx with None => [] | Some e => stash html gn gm (S_ "m21Dynam") KDynam e end).
  { unfold ppDirsDynamsTempos. cbv zeta. rewrite !attrs_of_app.
    pose proof (put_only html gn gm KDir id dirs dx N H OD) as P1. pose proof (put_only html gn gm KDynam id dynams nx N H ON) as P2.
    pose proof (put_none html gn gm KTempo id tempos N H OT) as P3. unfold put in P1, P2, P3. rewrite P3, app_nil_r.
    rewrite P1 by (destruct dx; [apply GD|exact I]). rewrite P2 by (destruct nx; [apply GN|exact I]). reflexivity. }
  unfold texts_of_note. rewrite P. clear P OD ON OT. unfold addDirsDynamsTempos.
  set (A := match dx with None => [] | Some e => _ end). set (B := match nx with None => [] | Some e => _ end).
  assert (TN : opt_str (d_get (S_ "m21Tempo") (A ++ B)) = []).
  { rewrite d_get_app. assert (ZA : d_get (S_ "m21Tempo") A = None /\ d_get (S_ "m21Tempo") B = None).
    { unfold A, B. split; [destruct dx as [e|]; [|reflexivity]|destruct nx as [e|]; [|reflexivity]].
      - exact (other_none html gn gm set_size set_family set_justify (S_ "m21Tempo") (S_ "m21Dir") KDir e ltac:(tauto) [] ltac:(left; reflexivity)).
      - exact (other_none html gn gm set_size set_family set_justify (S_ "m21Tempo") (S_ "m21Dynam") KDynam e ltac:(tauto) [] ltac:(left; reflexivity)). }
    destruct ZA as (-> & ->). reflexivity. }
  assert (DD : match opt_str (d_get (S_ "m21Dir") (A ++ B)) with [] => Some [] | _ :: _ => match text_with set_size set_family set_justify (S_ "m21Dir") (A ++ B) with None => None | Some o => Some [(KDir, o)] end end = Some ds).
  { assert (NB : B = [] \/ none_of (S_ "m21Dir") B) by (unfold B; destruct nx as [e|]; [right; apply (other_none html gn gm set_size set_family set_justify); tauto|left; reflexivity]).
    unfold A. destruct dx as [e|].
    - destruct GD as (C & o & R & ->). destruct (own_text html gn gm set_size set_family set_justify (S_ "m21Dir") KDir e B ltac:(cbn; tauto) C NB) as (O1 & _ & O3 & _).
      rewrite O3, R. match goal with |- match ?x with _ => _ end = _ => destruct x eqn:Q end; [congruence|reflexivity].
    - cbn [gives] in GD. rewrite GD. cbn [app]. destruct NB as [->|NB]; [reflexivity|]. pose proof (NB [] (or_introl eq_refl)) as Z. rewrite app_nil_r in Z. rewrite Z. reflexivity. }
  assert (DN : match opt_str (d_get (S_ "m21Dynam") (A ++ B)) with [] => Some [] | _ :: _ => match text_with set_size set_family set_justify (S_ "m21Dynam") (A ++ B) with None => None | Some o => Some [(KDynam, o)] end end = Some ns).
  { assert (NA : A = [] \/ none_of (S_ "m21Dynam") A) by (unfold A; destruct dx as [e|]; [right; apply (other_none html gn gm set_size set_family set_justify); tauto|left; reflexivity]).
    unfold B. destruct nx as [e|].
    - destruct GN as (C & o & R & ->). destruct (own_text html gn gm set_size set_family set_justify (S_ "m21Dynam") KDynam e A ltac:(cbn; tauto) C NA) as (_ & O2 & _ & O4).
      rewrite O4, R. match goal with |- match ?x with _ => _ end = _ => destruct x eqn:Q end; [congruence|reflexivity].
    - cbn [gives] in GN. rewrite GN, app_nil_r. destruct NA as [->|NA]; [reflexivity|]. pose proof (NA [] (or_introl eq_refl)) as Z. rewrite app_nil_r in Z. rewrite Z. reflexivity. }
  clearbody A B. cbv beta zeta. rewrite DD, DN, TN, app_nil_r. reflexivity.
Qed.
Print Assumptions C115_by_id_partial.

Definition txt_el (n : string) (id : string) (ra : list (str * str)) (t : string) : xml :=
  El (S_ n) [(S_ "startid", S_ id); (S_ "place", S_ "above")] [] [El (S_ "rend") ra (S_ t) [] []] [].
Definition note_ex : list xml -> list xml -> list xml -> str -> option (list (tkind * textobj)) :=
  texts_of_note (fun s => s) (fun _ => []) (fun _ => []) (fun s => s) fam_split just_set.
Definition obj (t : string) (p : string) (font : option str) : textobj :=
  TextObj (S_ t) (Some (S_ p)) (Some (TStyle font None None [] None None None None None false)).

Example C115_nonvacuous :
  let d := txt_el "dir" "#n1" [(S_ "fontstyle", S_ "italic")] "dolce" in
  let d2 := txt_el "dir" "#n2" [] "solo" in
  let p := txt_el "dynam" "n1" [] "pp" in
  only (S_ "n1") [d; d2] (Some d) /\ only (S_ "n1") [p] (Some p)
  /\ gives (fun s => s) (fun _ => []) (fun _ => []) (fun s => s) fam_split just_set KDir (Some d) [(KDir, obj "dolce" "above" (Some (S_ "italic")))]
  /\ gives (fun s => s) (fun _ => []) (fun _ => []) (fun s => s) fam_split just_set KDynam (Some p) [(KDynam, obj "pp" "above" None)]
  /\ note_ex [d; d2] [p] [] (S_ "n1") = Some [(KDir, obj "dolce" "above" (Some (S_ "italic"))); (KDynam, obj "pp" "above" None)]
  /\ note_ex [d; d2] [p] [] (S_ "n2") = Some [(KDir, obj "solo" "above" None)].
Proof.
  cbv zeta. split; [|split; [|split; [|split; [|split; vm_compute; reflexivity]]]].
  - exists [], [txt_el "dir" "#n2" [] "solo"]. split; [reflexivity|]. split; [right; reflexivity|]. constructor; [intros [K|K]; discriminate|constructor].
  - exists [], []. split; [reflexivity|]. split; [left; reflexivity|constructor].
  - split; [split; [discriminate|]; split; [reflexivity|]; split; [reflexivity|discriminate]|]. eexists. split; [vm_compute; reflexivity|reflexivity].
  - split; [split; [discriminate|]; split; [reflexivity|]; split; [reflexivity|discriminate]|]. eexists. split; [vm_compute; reflexivity|reflexivity].
Qed.

(** *** Where it fails *)

(** A tempo that names a note becomes a dynamic. *)
Theorem C115_tempo_refuted : exists e, x_name e = S_ "tempo" /\ names (S_ "n1") e /\
  exists o, note_ex [] [] [e] (S_ "n1") = Some [(KDynam, o)] /\ o_text o = S_ "Allegro".
Proof.
  exists (txt_el "tempo" "#n1" [] "Allegro"). split; [reflexivity|]. split; [right; reflexivity|]. eexists. split; [vm_compute; reflexivity|reflexivity].
Qed.
Print Assumptions C115_tempo_refuted.

(** Of two directions that name one note only the last is kept, and it takes over the
    look of the first; a tempo takes the place of a dynamic. *)
Theorem C115_two_refuted : exists d1 d2 p t,
  note_ex [d1] [] [] (S_ "n1") = Some [(KDir, obj "dolce" "above" (Some (S_ "italic")))]
  /\ note_ex [d2] [] [] (S_ "n1") = Some [(KDir, obj "div." "above" None)]
  /\ note_ex [d1; d2] [] [] (S_ "n1") = Some [(KDir, obj "div." "above" (Some (S_ "italic")))]
  /\ note_ex [] [p] [] (S_ "n1") = Some [(KDynam, obj "pp" "above" None)]
  /\ note_ex [] [p] [t] (S_ "n1") = Some [(KDynam, obj "Allegro" "above" None)].
Proof.
  exists (txt_el "dir" "#n1" [(S_ "fontstyle", S_ "italic")] "dolce"), (txt_el "dir" "#n1" [] "div."), (txt_el "dynam" "#n1" [] "pp"), (txt_el "tempo" "#n1" [] "Allegro").
  repeat (split; [vm_compute; reflexivity|]). vm_compute; reflexivity.
Qed.
Print Assumptions C115_two_refuted.

(** Size and colour are lost. *)
Theorem C115_colour_refuted : exists e o, names (S_ "n1") e /\ read_ex (fun s => s) e = Some o
  /\ t_color (style_of o) = Some (S_ "red") /\ t_size (style_of o) = Some (S_ "14")
  /\ exists o', note_ex [e] [] [] (S_ "n1") = Some [(KDir, o')] /\ t_color (style_of o') = None /\ t_size (style_of o') = None.
Proof.
  exists (txt_el "dir" "#n1" [(S_ "color", S_ "red"); (S_ "fontsize", S_ "14")] "dolce"). eexists. split; [right; reflexivity|]. split; [vm_compute; reflexivity|].
  split; [reflexivity|]. split; [reflexivity|]. eexists. split; [vm_compute; reflexivity|]. split; reflexivity.
Qed.
Print Assumptions C115_colour_refuted.

(** Properties of lyrics in MEI: C116. *)
From Coq Require Import List Ascii String Arith NArith ZArith Lia Bool.
From Verif Require Import PyStr PyStrProofs LayoutModel LayoutProofs ClefModel DateModel DateProofs LyricProofs2 MeiTextModel MeiStyleModel MeiLyricModel PropsMeiText PropsMeiStyle.
Import ListNotations.

(** ** C116: the verses of a note are read back as written *)

(** The syllables a verse puts under the note. *)
Definition syllables (v : verse) : list lyric := match v_comps v with [] => [v_own v] | cs => cs end.
(** A syllable that is a whole word. *)
Definition whole (l : lyric) : Prop := l_pos l = None \/ l_pos l = Some Single.
(** A syllable, or a verse, as a text with a look and a place. *)
Definition as_text (l : lyric) : textobj := TextObj (l_text l) (match l_style l with Some _ => l_place l | None => None end) (l_style l).

(** The same syllable for the singer and on the page. *)
Definition same_syllable (l l' : lyric) : Prop :=
  l_text l' = l_text l
  /\ (whole l' <-> whole l) /\ (forall p, In p [Begin; Middle; End] -> (l_pos l' = Some p <-> l_pos l = Some p))
  /\ (italic (as_text l') <-> italic (as_text l)) /\ (bold (as_text l') <-> bold (as_text l))
  /\ t_family (style_of (as_text l')) = t_family (style_of (as_text l))
  /\ t_justify (style_of (as_text l')) = t_justify (style_of (as_text l)).
Definition same_verse (v v' : verse) : Prop :=
  v_num v' = v_num v /\ opt_str (v_ident v') = opt_str (v_ident v)
  /\ Forall2 same_syllable (syllables v) (syllables v')
  /\ placed (as_text (v_own v')) = placed (as_text (v_own v)).

(** Hyphens at the ends of a raw text are marks for music21; other texts are words. *)
Definition raw_ok (raw : str -> str * syllabic) : Prop :=
  forall t, hd_error t <> Some "-"%char -> hd_error (rev t) <> Some "-"%char -> raw t = (t, Single).
Definition good_syllable (set_family : str -> list str) (set_justify : str -> option str) (l : lyric) : Prop :=
  trimmed (l_text l) /\ ~ In "&"%char (l_text l)
  /\ l_pos l <> Some Composite
  /\ (whole l -> hd_error (l_text l) <> Some "-"%char /\ hd_error (rev (l_text l)) <> Some "-"%char)
  /\ (let s := style_of (as_text l) in
      In (t_font s) [None; Some (S_ "normal"); Some (S_ "italic"); Some (S_ "bold"); Some (S_ "bolditalic")]
      /\ In (t_weight s) [None; Some (S_ "normal"); Some (S_ "bold")]
      /\ (t_family s = [] \/ exists f, f <> [] /\ t_family s = [f] /\ set_family f = [f])
      /\ (forall v, t_justify s = Some v -> v <> [] /\ set_justify v = Some v)).
Definition good_verse (set_family : str -> list str) (set_justify : str -> option str) (v : verse) : Prop :=
  v_num v <> 0%Z /\ hd_error (opt_str (v_ident v)) <> Some newline
  /\ placed (as_text (v_own v)) <> Between
  /\ Forall (good_syllable set_family set_justify) (syllables v).

Lemma py_int_show z : py_int (show_Z z) = Some z.
Proof.
  destruct z as [|p|p].
  - reflexivity.
  - cbn [show_Z]. rewrite py_int_digits; [rewrite parse_show_N; reflexivity| |apply show_N_digits]. destruct (show_N_cons (Npos p)) as (c & s & -> & _). discriminate.
  - cbn [show_Z]. rewrite py_int_neg; [rewrite parse_show_N; reflexivity| |apply show_N_digits]. destruct (show_N_cons (Npos p)) as (c & s & -> & _). discriminate.
Qed.
Lemma d_get_to_opt k attr a : In (k, attr) style_names -> d_get k (rend_style a) = to_opt (opt_str (d_get k (rend_style a))).
Proof.
  intro I. destruct (d_get k (rend_style a)) as [v|] eqn:E; [|reflexivity]. apply (rend_style_key k attr a I) in E. destruct E as (N & _).
  cbn. destruct v; [contradiction|reflexivity].
Qed.
Lemma font_look st : In (t_font st) [None; Some (S_ "normal"); Some (S_ "italic"); Some (S_ "bold"); Some (S_ "bolditalic")] ->
  In (t_weight st) [None; Some (S_ "normal"); Some (S_ "bold")] ->
  let f := m21FontStyleAndWeightToMei (t_font st) (t_weight st) in
  let ff := match to_opt (fst f), to_opt (snd f) with None, None => None | s, w => Some (meiFontStyleAndWeightToM21FontStyle (opt_str s) (opt_str w)) end in
  (In ff [Some (S_ "italic"); Some (S_ "bolditalic")] <-> In (t_font st) [Some (S_ "italic"); Some (S_ "bolditalic")])
  /\ (In ff [Some (S_ "bold"); Some (S_ "bolditalic")] <-> t_weight st = Some (S_ "bold") \/ t_weight st = None /\ In (t_font st) [Some (S_ "bold"); Some (S_ "bolditalic")]).
Proof.
  intros F W. cbn [In] in F, W.
  destruct F as [A|[A|[A|[A|[A|[]]]]]]; destruct W as [B|[B|[B|[]]]]; rewrite <- A, <- B; vm_compute; intuition discriminate.
Qed.
Lemma bold_font s : t_weight s = None -> (t_weight s = Some (S_ "bold") \/ t_weight s = None /\ In (t_font s) [Some (S_ "bold"); Some (S_ "bolditalic")] <-> In (t_font s) [Some (S_ "bold"); Some (S_ "bolditalic")]).
Proof. intros ->. split; [intros [K|(_ & K)]; [discriminate|exact K]|tauto]. Qed.

Section Rt.
Context (html glyph_num glyph_name : str -> str) (set_family : str -> list str) (set_justify : str -> option str) (raw : str -> str * syllabic).
Context (H_html : html_ok html) (H_raw : raw_ok raw).
Context (lay0 lay1 lay2 tail : str) (L1 : lay lay1) (L2 : lay lay2).
Local Notation rd := (sylFromElement html glyph_num glyph_name set_family set_justify raw).

Lemma not_centred (t : str) : trimmed t -> match t with [c; x] => if Ascii.eqb c nbsp then [x] else t | _ => t end = t.
Proof.
  intros (T & _). destruct t as [|c [|x [|]]]; try reflexivity. destruct (Ascii.eqb c nbsp) eqn:E; [|reflexivity].
  apply Ascii.eqb_eq in E. subst c. discriminate T.
Qed.
Lemma syl_back l : good_syllable set_family set_justify l ->
  exists l', rd (m21SyllableToMei lay1 lay2 tail l) = Some l' /\ same_syllable l l'
    /\ l_place l' = None /\ t_align (style_of (as_text l')) = None /\ t_absY (style_of (as_text l')) = None.
Proof.
  intros (T & NA & NC & WH & F & W & FA & J). unfold sylFromElement, m21SyllableToMei.
  rewrite read_emitted by assumption. rewrite emitted_attrs, H_html, strip_trimmed by assumption. cbv zeta.
  rewrite not_centred by exact T.
  set (d := match l_style l with Some s => rend_style (rend_attrs s) | None => [] end).
  assert (D : d = rend_style (rend_attrs (style_of (as_text l)))) by (unfold d, style_of, as_text; cbn [o_style]; destruct (l_style l); reflexivity).
  rewrite D. clearbody d. clear D d. set (st := style_of (as_text l)) in *.
  pose proof (sget_style (rend_attrs st)) as (S1 & S2 & S3 & S4 & S5 & S6 & S7).
  pose proof (rend_get st) as R. cbv zeta in R. destruct R as (R1 & R2 & R3 & R4 & R5 & R6 & R7).
  assert (G1 : d_get (S_ "fontStyle") (rend_style (rend_attrs st)) = to_opt (fst (m21FontStyleAndWeightToMei (t_font st) (t_weight st)))).
  { rewrite (d_get_to_opt _ (S_ "fontstyle")) by (left; reflexivity). change (opt_str (d_get (S_ "fontStyle") (rend_style (rend_attrs st)))) with (sget "fontStyle" (rend_style (rend_attrs st))). rewrite S1, R1. reflexivity. }
  assert (G2 : d_get (S_ "fontWeight") (rend_style (rend_attrs st)) = to_opt (snd (m21FontStyleAndWeightToMei (t_font st) (t_weight st)))).
  { rewrite (d_get_to_opt _ (S_ "fontweight")) by (right; left; reflexivity). change (opt_str (d_get (S_ "fontWeight") (rend_style (rend_attrs st)))) with (sget "fontWeight" (rend_style (rend_attrs st))). rewrite S2, R2. reflexivity. }
  assert (G4 : d_get (S_ "fontFamily") (rend_style (rend_attrs st)) = to_opt (hd [] (t_family st))).
  { rewrite (d_get_to_opt _ (S_ "fontfam")) by (do 3 right; left; reflexivity). change (opt_str (d_get (S_ "fontFamily") (rend_style (rend_attrs st)))) with (sget "fontFamily" (rend_style (rend_attrs st))). rewrite S4, R4. reflexivity. }
  assert (G5 : d_get (S_ "justify") (rend_style (rend_attrs st)) = to_opt (opt_str (t_justify st))).
  { rewrite (d_get_to_opt _ (S_ "halign")) by (do 4 right; left; reflexivity). change (opt_str (d_get (S_ "justify") (rend_style (rend_attrs st)))) with (sget "justify" (rend_style (rend_attrs st))). rewrite S5, R5. reflexivity. }
  rewrite G1, G2, G4, G5. clear G1 G2 G4 G5 S1 S2 S3 S4 S5 S6 S7 R1 R2 R3 R4 R5 R6 R7.
  pose proof (font_look st F W) as FL. cbv zeta in FL. destruct FL as (FI & FB).
  set (ff := match to_opt (fst _) with Some _ => _ | None => _ end) in *. clearbody ff.
  assert (FAM : match to_opt (hd [] (t_family st)) with None => [] | Some f => set_family f end = t_family st).
  { destruct FA as [->|(f & N & -> & K)]; [reflexivity|]. cbn [hd]. destruct f; [contradiction|exact K]. }
  rewrite FAM.
  assert (JU : match to_opt (opt_str (t_justify st)) with None => Some None | Some j => option_map Some (set_justify j) end = Some (t_justify st)).
  { destruct (t_justify st) as [v|]; [|reflexivity]. destruct (J v eq_refl) as (V & K). cbn [opt_str]. destruct v; [contradiction|]. cbn [to_opt]. rewrite K. reflexivity. }
  rewrite JU. clear JU FAM.
  assert (PO : exists q, (let '(text, pos) := match assoc_str (S_ "wordpos") (attr_if (S_ "wordpos") (wordpos_of (l_pos l))) with
            | None => let (t, p) := raw (l_text l) in (t, Some p)
            | Some w => (l_text l, if str_eqb w (S_ "i") then Some Begin else if str_eqb w (S_ "m") then Some Middle else if str_eqb w (S_ "t") then Some End else None) end in (text, pos)) = (l_text l, Some q)
            /\ ((q = Single /\ whole l) \/ (l_pos l = Some q /\ In q [Begin; Middle; End]))).
  { destruct (l_pos l) as [[]|] eqn:E; try contradiction.
    - exists Begin. split; [reflexivity|]. right. split; [reflexivity|cbn; tauto].
    - exists Middle. split; [reflexivity|]. right. split; [reflexivity|cbn; tauto].
    - exists End. split; [reflexivity|]. right. split; [reflexivity|cbn; tauto].
    - exists Single. destruct (WH (or_intror E)) as (W1 & W2). cbn [wordpos_of attr_if assoc_str]. rewrite (H_raw _ W1 W2). split; [reflexivity|]. left. split; [reflexivity|]. right. exact E.
    - exists Single. destruct (WH (or_introl E)) as (W1 & W2). cbn [wordpos_of attr_if assoc_str]. rewrite (H_raw _ W1 W2). split; [reflexivity|]. left. split; [reflexivity|]. left. exact E. }
  destruct PO as (q & PQ & PQ2). destruct (match assoc_str (S_ "wordpos") _ with Some _ => _ | None => _ end) as [tx ps]. injection PQ as -> ->.
  eexists. split; [reflexivity|].
  set (stl := match ff with Some _ => _ | None => _ end).
  assert (SO : style_of (as_text (Lyric (l_text l) (Some q) stl None (S_ " "))) = TStyle ff None None (t_family st) (t_justify st) None None None None false).
  { unfold style_of, as_text, stl. cbn [l_style o_style]. destruct ff, (t_family st), (t_justify st); reflexivity. }
  clearbody stl.
  split; [|split; [reflexivity|]; rewrite SO; split; reflexivity].
  unfold same_syllable. unfold italic, bold. rewrite !SO. fold st. cbn [t_font t_weight t_family t_justify l_text l_pos].
  split; [reflexivity|].
  split; [|split; [|split; [exact FI|split; [|split; reflexivity]]]].
  - unfold whole at 1. cbn [l_pos]. destruct PQ2 as [(-> & K)|(P & Q)]; [tauto|]. split.
    + intros [K|K]; [discriminate|]. injection K as ->. destruct Q as [Q|[Q|[Q|[]]]]; discriminate.
    + intros [K|K]; rewrite K in P; [discriminate|]. injection P as <-. destruct Q as [Q|[Q|[Q|[]]]]; discriminate.
  - intros p P. destruct PQ2 as [(-> & [K|K])|(-> & Q)]; [..|tauto]; rewrite K; split; intro E; try discriminate; injection E as <-; destruct P as [P|[P|[P|[]]]]; discriminate.
  - rewrite <- FB. split; [intros [K|(_ & K)]; [discriminate|exact K]|tauto].
Qed.

Lemma subs_back ls : Forall (good_syllable set_family set_justify) ls -> exists ls',
  verse_subs html glyph_num glyph_name set_family set_justify raw (map (m21SyllableToMei lay1 lay2 tail) ls) = Some (None, ls')
  /\ Forall2 (fun l l' => same_syllable l l' /\ l_place l' = None /\ t_align (style_of (as_text l')) = None /\ t_absY (style_of (as_text l')) = None) ls ls'.
Proof.
  induction 1 as [|l ls G _ IH]; [exists []; split; [reflexivity|constructor]|].
  destruct IH as (ls' & V & F). destruct (syl_back l G) as (l' & R & K). exists (l' :: ls'). split; [|constructor; assumption].
  cbn [map verse_subs]. rewrite V.
  assert (N : x_name (m21SyllableToMei lay1 lay2 tail l) = S_ "syl") by (unfold m21SyllableToMei, emitStyledTextElement; destruct (l_style l) as [s|]; [destruct (rend_attrs s)|]; reflexivity).
  rewrite N, R. reflexivity.
Qed.

Lemma verse_back v : good_verse set_family set_justify v -> exists v',
  verseFromElement html glyph_num glyph_name set_family set_justify raw (verseToMei lay0 lay1 lay2 tail v) = Some v' /\ same_verse v v'.
Proof.
  intros (NZ & LB & NB & G). destruct (subs_back _ G) as (ls' & SB & F).
  set (o := TextObj [] (match l_style (v_own v) with Some _ => l_place (v_own v) | None => None end) (l_style (v_own v))).
  assert (PO : placed o = placed (as_text (v_own v))) by reflexivity.
  assert (SS : verse_subs html glyph_num glyph_name set_family set_justify raw (x_subs (verseToMei lay0 lay1 lay2 tail v)) = Some (to_opt (opt_str (v_ident v)), ls')).
  { unfold verseToMei. cbn [x_subs]. fold (syllables v). destruct (opt_str (v_ident v)) as [|c s]; [exact SB|].
    cbn [app verse_subs]. rewrite SB. cbn [x_name]. replace (str_eqb (S_ "label") (S_ "label")) with true by reflexivity.
    cbn [text_iter flat_map app]. cbn [hd_error] in LB.
    destruct (Ascii.eqb c newline) eqn:E; [apply Ascii.eqb_eq in E; congruence|]. rewrite app_nil_r. reflexivity. }
  unfold verseFromElement. rewrite SS.
  assert (AN : assoc_str (S_ "n") (x_attrs (verseToMei lay0 lay1 lay2 tail v)) = Some (show_Z (v_num v))).
  { unfold verseToMei. cbn [x_attrs]. destruct (v_num v =? 0)%Z eqn:E; [apply Z.eqb_eq in E; contradiction|]. reflexivity. }
  assert (AP : x_get (S_ "place") (x_attrs (verseToMei lay0 lay1 lay2 tail v)) = m21PlacementToMei o).
  { unfold verseToMei. cbn [x_attrs]. rewrite x_get_absent; [apply (stylistic_get o)|]. destruct (v_num v =? 0)%Z; cbn; intuition discriminate. }
  assert (AL : assoc_str (S_ "label") (x_attrs (verseToMei lay0 lay1 lay2 tail v)) = None).
  { unfold verseToMei. cbn [x_attrs]. fold o. unfold stylisticAttributes.
    destruct (v_num v =? 0)%Z; cbn [app assoc_str]; rewrite ?assoc_if;
      replace (str_eqb (S_ "label") (S_ "n")) with false by reflexivity; rewrite ?assoc_if; replace (str_eqb (S_ "label") (S_ "place")) with false by reflexivity;
      (destruct (o_style o) as [s|]; [destruct (t_hide s); cbn [app assoc_str]; rewrite <- (app_nil_r (attr_if _ _)), assoc_if; reflexivity|reflexivity]). }
  rewrite AN, AP, AL, py_int_show.
  pose proof (place_read o) as PR. cbv zeta in PR. rewrite PO in PR.
  (* the place that is read *)
  assert (PL : forall l, l_place l = None -> t_align (style_of (as_text l)) = None -> t_absY (style_of (as_text l)) = None ->
     placed (as_text (placed_in (m21PlacementToMei o) l)) = placed (as_text (v_own v))).
  { intros l P0 A0 Y0. set (pv := placed (as_text (v_own v))) in *. clearbody pv. apply (f_equal fst) in PR as P1. apply (f_equal snd) in PR as P2. cbn [fst snd] in P1, P2. clear PR.
    unfold placed_in. destruct (mem (m21PlacementToMei o) [S_ "above"; S_ "below"]) eqn:M.
    - unfold placed at 1, side, as_text. cbn [l_style l_place o_place].
      assert (AA : t_align (style_of {| o_text := l_text l; o_place := Some (m21PlacementToMei o); o_style := Some match l_style l with Some s => s | None => TStyle None None None [] None None None None None false end |}) = None).
      { unfold style_of in *. cbn [o_style as_text] in *. destruct (l_style l); exact A0. }
      cbn [l_text] in *. rewrite AA. unfold mem in M. cbn [existsb] in M. destruct (str_eqb (m21PlacementToMei o) (S_ "above")) eqn:EA.
      + destruct pv; try discriminate; reflexivity.
      + destruct (str_eqb (m21PlacementToMei o) (S_ "below")) eqn:EB; [|discriminate]. cbn [orb] in P1. destruct pv; try discriminate; [reflexivity|contradiction].
    - unfold mem in M. cbn [existsb] in M. apply orb_false_iff in M. destruct M as (EA & M). apply orb_false_iff in M. destruct M as (EB & _). rewrite EA, EB in P1. cbn [orb] in P1.
      assert (U : placed (as_text l) = Unplaced). { unfold placed, side. rewrite A0, Y0. unfold as_text. cbn [o_place]. destruct (l_style l); [rewrite P0|]; reflexivity. }
      rewrite U. destruct pv; try reflexivity; try contradiction; destruct (str_eqb (m21PlacementToMei o) (S_ "between")); discriminate. }
  clear PR.
  assert (ID : opt_str (match to_opt (opt_str (v_ident v)) with Some s => Some s | None => None end) = opt_str (v_ident v)) by (destruct (opt_str (v_ident v)); reflexivity).
  assert (F2 : Forall2 same_syllable (syllables v) ls') by (clear - F; induction F as [|l l' ls ls' (A & _) _ IH]; constructor; assumption).
  assert (NE : syllables v <> []) by (unfold syllables; destruct (v_comps v); discriminate).
  destruct ls' as [|l1 [|l2 ls']].
  - inversion F2 as [E|]. exfalso. apply NE. symmetry. exact E.
  - eexists. split; [reflexivity|]. unfold same_verse. cbn [v_num v_ident v_own].
    split; [reflexivity|]. split; [exact ID|].
    inversion F as [|x y xs ys (K1 & K2 & K3 & K4) FT Q1 Q2]; subst. inversion FT; subst.
    split; [|apply PL; assumption].
    unfold syllables. cbn [v_comps v_own]. constructor; [|constructor].
    unfold placed_in. destruct (mem _ _); [|exact K1].
    unfold same_syllable in *. unfold italic, bold in *. cbn [l_text l_pos] in *.
    assert (SE : style_of (as_text (Lyric (l_text l1) (l_pos l1) (Some match l_style l1 with Some s => s | None => TStyle None None None [] None None None None None false end) (Some (m21PlacementToMei o)) (l_elision l1))) = style_of (as_text l1))
      by (unfold style_of, as_text; cbn [l_style o_style]; destruct (l_style l1); reflexivity).
    rewrite SE. unfold whole in *. cbn [l_pos]. exact K1.
  - eexists. split; [reflexivity|]. unfold same_verse. cbn [v_num v_ident v_own].
    split; [reflexivity|]. split; [exact ID|]. split; [exact F2|apply PL; reflexivity].
Qed.
End Rt.

Theorem C116_lyrics_partial : forall html gn gm set_family set_justify raw lay0 lay1 lay2 tail vs,
  html_ok html -> raw_ok raw -> lay lay1 -> lay lay2 -> Forall (good_verse set_family set_justify) vs ->
  exists vs', map (verseFromElement html gn gm set_family set_justify raw) (map (verseToMei lay0 lay1 lay2 tail) vs) = map Some vs'
    /\ Forall2 same_verse vs vs'.
Proof.
  intros html gn gm set_family set_justify raw lay0 lay1 lay2 tail vs H R L1 L2 F. induction F as [|v vs G _ IH].
  - exists []. split; [reflexivity|constructor].
  - destruct IH as (vs' & M & F2). destruct (verse_back html gn gm set_family set_justify raw H R lay0 lay1 lay2 tail L1 L2 v G) as (v' & V & S).
    exists (v' :: vs'). split; [cbn [map]; rewrite V, M; reflexivity|constructor; assumption].
Qed.
Print Assumptions C116_lyrics_partial.

(** What music21 makes of a raw text, for the examples. *)
Definition raw_ex (t : str) : str * syllabic :=
  let hy (o : option ascii) := match o with Some c => Ascii.eqb c "-" | None => false end in
  match hy (hd_error t), hy (hd_error (rev t)) with
  | true, false => (tl t, End)
  | false, true => (rev (tl (rev t)), Begin)
  | true, true => (rev (tl (rev (tl t))), Middle)
  | false, false => (t, Single)
  end.
Lemma raw_ex_ok : raw_ok raw_ex.
Proof.
  intros t A B. unfold raw_ex. destruct (hd_error t) as [c|]; [destruct (Ascii.eqb c "-") eqn:E; [apply Ascii.eqb_eq in E; congruence|]|];
    (destruct (hd_error (rev t)) as [x|]; [destruct (Ascii.eqb x "-") eqn:F; [apply Ascii.eqb_eq in F; congruence|]|]); reflexivity.
Qed.
Definition there_and_back (v : verse) : option verse :=
  verseFromElement (fun s => s) (fun _ => []) (fun _ => []) fam_split just_set raw_ex (verseToMei nl nl nl nl v).
Definition syl (t : string) (p : option syllabic) (st : option tstyle) : lyric := Lyric (S_ t) p st None (S_ " ").
Definition it_style : tstyle := TStyle (Some (S_ "bolditalic")) None None [S_ "Times"] None None None None None false.

Example C116_nonvacuous :
  let v1 := Verse 2 (Some (S_ "Refrain")) (Lyric (S_ "glo") (Some Begin) (Some it_style) (Some (S_ "above")) (S_ " ")) [] in
  let v2 := Verse (-3) None (syl "" None None) [syl "ri" (Some Middle) None; syl "a" (Some Single) (Some it_style)] in
  good_verse fam_split just_set v1 /\ good_verse fam_split just_set v2
  /\ there_and_back v1 = Some v1
  /\ there_and_back v2 = Some (Verse (-3) None (syl "" None None) [syl "ri" (Some Middle) None; syl "a" (Some Single) (Some it_style)]).
Proof.
  assert (G : forall l, In l [Lyric (S_ "glo") (Some Begin) (Some it_style) (Some (S_ "above")) (S_ " "); syl "ri" (Some Middle) None; syl "a" (Some Single) (Some it_style)] -> good_syllable fam_split just_set l).
  { intros l [<-|[<-|[<-|[]]]]; (split; [split; reflexivity|]; split; [vm_compute; intuition discriminate|]; split; [discriminate|]; split; [intros _; split; discriminate|]; cbv zeta;
      split; [vm_compute; tauto|]; split; [vm_compute; tauto|]; split; [|intros ? K; discriminate]).
    - right. exists (S_ "Times"). split; [discriminate|split; reflexivity].
    - left. reflexivity.
    - right. exists (S_ "Times"). split; [discriminate|split; reflexivity]. }
  cbv zeta. split; [|split; [|split; vm_compute; reflexivity]].
  - split; [discriminate|]. split; [discriminate|]. split; [discriminate|]. constructor; [apply G; left; reflexivity|constructor].
  - split; [discriminate|]. split; [discriminate|]. split; [discriminate|]. constructor; [apply G; right; left; reflexivity|constructor; [apply G; right; right; left; reflexivity|constructor]].
Qed.

(** *** Where it fails *)

(** Verse 0 becomes verse 1. *)
Theorem C116_number_refuted : exists v v', v_num v = 0%Z /\ there_and_back v = Some v' /\ v_num v' = 1%Z.
Proof. exists (Verse 0 None (syl "la" (Some Single) None) []). eexists. split; [reflexivity|]. split; [vm_compute; reflexivity|reflexivity]. Qed.
Print Assumptions C116_number_refuted.

(** A verse between the staves loses its place. *)
Theorem C116_between_refuted : exists v v', placed (as_text (v_own v)) = Between /\ there_and_back v = Some v' /\ placed (as_text (v_own v')) = Unplaced.
Proof.
  exists (Verse 1 None (Lyric (S_ "la") (Some Single) (Some (TStyle None None None [] None None None (Some (S_ "middle")) None false)) (Some (S_ "below")) (S_ " ")) []). eexists.
  split; [reflexivity|]. split; [vm_compute; reflexivity|reflexivity].
Qed.
Print Assumptions C116_between_refuted.

(** Colour and size of a syllable are written but not read. *)
Theorem C116_colour_refuted : exists v v', t_color (style_of (as_text (v_own v))) = Some (S_ "red") /\ t_size (style_of (as_text (v_own v))) = Some (S_ "9")
  /\ there_and_back v = Some v' /\ t_color (style_of (as_text (v_own v'))) = None /\ t_size (style_of (as_text (v_own v'))) = None.
Proof.
  exists (Verse 1 None (syl "la" (Some Single) (Some (TStyle None None (Some (S_ "9")) [] None (Some (S_ "red")) None None None false))) []). eexists.
  split; [reflexivity|]. split; [reflexivity|]. split; [vm_compute; reflexivity|]. split; reflexivity.
Qed.
Print Assumptions C116_colour_refuted.

(** A word that ends with a hyphen loses it and becomes the beginning of a word: no
    place in the word is written for whole words. *)
Theorem C116_hyphen_refuted : exists v v', v_own v = syl "ah-" (Some Single) None /\ there_and_back v = Some v' /\ v_own v' = syl "ah" (Some Begin) None.
Proof. exists (Verse 1 None (syl "ah-" (Some Single) None) []). eexists. split; [reflexivity|]. split; [vm_compute; reflexivity|reflexivity]. Qed.
Print Assumptions C116_hyphen_refuted.

(** What joins two syllables on one note is lost. *)
Theorem C116_elision_refuted : exists v v', map l_elision (v_comps v) = [S_ " "; S_ "'"] /\ there_and_back v = Some v' /\ map l_elision (v_comps v') = [S_ " "; S_ " "].
Proof.
  exists (Verse 1 None (syl "" None None) [syl "glo" (Some End) None; Lyric (S_ "ex") (Some Begin) None None (S_ "'")]). eexists.
  split; [reflexivity|]. split; [vm_compute; reflexivity|reflexivity].
Qed.
Print Assumptions C116_elision_refuted.

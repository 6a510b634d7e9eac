(** C164, C165: metadata survives Humdrum reference records. *)
From Coq Require Import List Arith NArith Bool Ascii String Lia.
From Verif Require Import PyStr PyStrProofs DateModel LayoutModel LayoutProofs ClefModel TokenModel
  TokenProofs TokenProofs2 PropsToken NamesModel RefMetaModel.
Import ListNotations.
Local Open Scope list_scope.

(** ** What survives *)

(** A text that can stand on a line: not empty, no blanks at its ends, no character
    reference, no backslash followed by n.  Line breaks inside are allowed. *)
Definition plain_text (s : str) : Prop :=
  trimmed s /\ char_in "&"%char s = false /\ no_escape_n s = true.
(** A language in small letters; a translation has a language. *)
Definition plain_lang (t : mtext) : Prop :=
  match t_lang t with None => t_trans t = false | Some l => l <> [] /\ forallb is_lower l = true end.
(** A key as other programs write it: of the standard form. *)
Definition standard_form (k : str) : Prop := exists K d l,
  In K (map fst ref_table) /\ forallb is_digit d = true /\ forallb is_letter l = true
  /\ (k = K ++ d \/ k = K ++ d ++ S_ "@" ++ l \/ k = K ++ d ++ S_ "@@" ++ l).

(** An item that survives: a text or a contributor under a name that has a reference key
    (music21 makes that value of its text again); a text under one of the other reference
    keys; a performer or the like; free text under a free key. *)
Inductive lasting (omd : str -> option str) (conv : str -> mtext -> mval) : str -> mval -> Prop :=
| last_named : forall K n t v, In (K, n) ref_table -> n <> [] ->
    (v = MText t \/ v = MContrib n [t]) -> conv n t = v ->
    plain_text (t_data t) -> plain_lang t ->
    (n = S_ "movementName" -> v = MText t /\ omd (t_data t) = Some (t_data t)) ->
    lasting omd conv n v
| last_key : forall K t, In (K, []) ref_table ->
    ~ In K [S_ "ACO"; S_ "MPN"; S_ "MPS"; S_ "PED"; S_ "CDT"; S_ "RDT"; S_ "MRD"; S_ "MPD"; S_ "MDT"; S_ "YOY"; S_ "END"] ->
    plain_text (t_data t) -> plain_lang t ->
    lasting omd conv (S_ "humdrum:" ++ K) (MText t)
| last_role : forall r t, In r [S_ "performer"; S_ "suspected performer"; S_ "publication editor"] ->
    plain_text (t_data t) -> t_lang t = None -> t_trans t = false ->
    lasting omd conv (S_ "otherContributor") (MContrib r [t])
| last_raw : forall k s, trimmed k -> char_in ":"%char k = false -> starts_with (S_ "!") k = false ->
    k <> S_ "system-decoration" -> starts_with (S_ "RDF**") k = false ->
    ~ standard_form k -> plain_text s ->
    lasting omd conv (S_ "raw:" ++ k) (MText (mkT s None false)).

(** ** The table *)

Definition row_ok (r : str * str) : bool :=
  let (K, n) := r in
  forallb key_char K && forallb (fun c => negb (is_space c)) K && negb (char_in ":"%char K)
  && negb (starts_with (S_ "!") K) && negb (starts_with (S_ "RDF**") (K ++ S_ "zzzzz")) && (length K =? 3)
  && match assoc_str K ref_table with Some m => str_eqb n m | None => false end
  && match n with
     | [] => true
     | _ => match name_key n with Some k => str_eqb k K | None => false end
            && forallb is_letter n && negb (str_eqb K (S_ "MRD")) && negb (str_eqb n (S_ "otherContributor"))
            && negb (str_eqb K (S_ "OTL") && negb (str_eqb n (S_ "title")))
            && negb (str_eqb K (S_ "OMD") && negb (str_eqb n (S_ "movementName")))
     end.
Lemma rows_ok : forallb row_ok ref_table = true.
Proof. vm_compute. reflexivity. Qed.

(** ** Strings *)

Lemma nospace_trimmed s : s <> [] -> forallb (fun c => negb (is_space c)) s = true -> trimmed s.
Proof.
  intros N H. rewrite forallb_forall in H. split.
  - destruct s as [|c s]; [congruence|]. apply negb_true_iff, H. left; reflexivity.
  - destruct (rev s) as [|c r] eqn:E.
    + apply (f_equal (@rev ascii)) in E. rewrite rev_involutive in E. cbn in E. congruence.
    + apply negb_true_iff, H. apply in_rev. rewrite E. left; reflexivity.
Qed.

Lemma replace_newline_fuel s : forall f, length s < f ->
  replace_fuel f [newline] (S_ "\n") s = flat_map nl_char s.
Proof.
  induction s as [|c s IH]; intros f L; (destruct f as [|f]; [inversion L|]); [reflexivity|].
  cbn [replace_fuel flat_map]. unfold nl_char at 1.
  change (starts_with [newline] (c :: s)) with (Ascii.eqb newline c && true).
  rewrite andb_true_r, (Ascii.eqb_sym newline c). cbn [length] in L.
  destruct (Ascii.eqb c newline).
  - cbn [length skipn]. rewrite IH by lia. reflexivity.
  - rewrite IH by lia. reflexivity.
Qed.
Lemma replace_newline s : replace [newline] (S_ "\n") s = flat_map nl_char s.
Proof. apply replace_newline_fuel. lia. Qed.

Lemma nl_char_edges c : is_space c = false ->
  match nl_char c with [] => False | d :: _ => is_space d = false end
  /\ match rev (nl_char c) with [] => False | d :: _ => is_space d = false end.
Proof.
  intro H. unfold nl_char. destruct (Ascii.eqb c newline) eqn:E; [split; reflexivity|].
  cbn. split; exact H.
Qed.
Lemma nl_trimmed s : trimmed s -> trimmed (flat_map nl_char s).
Proof. intro H. apply trimmed_app_mid; [intros c E; apply (nl_char_edges c E)..|exact H]. Qed.
Lemma nl_amp s : char_in "&"%char s = false -> char_in "&"%char (flat_map nl_char s) = false.
Proof.
  unfold char_in. induction s as [|c s IH]; [reflexivity|]. cbn [existsb flat_map]. intro H.
  apply orb_false_iff in H as [H1 H2]. rewrite existsb_app, (IH H2), orb_false_r.
  unfold nl_char. destruct (Ascii.eqb c newline); [reflexivity|]. cbn [existsb]. rewrite H1. reflexivity.
Qed.

Lemma upper_lower c : is_lower c = true -> to_lower (to_upper c) = c /\ is_upper (to_upper c) = true.
Proof. destruct c as [[] [] [] [] [] [] [] []]; vm_compute; intro H; try discriminate; split; reflexivity. Qed.
Lemma map_upper_lower l : forallb is_lower l = true ->
  map to_lower (map to_upper l) = l /\ forallb is_upper (map to_upper l) = true.
Proof.
  induction l as [|c l IH]; [split; reflexivity|]. cbn [forallb map]. intro H.
  apply andb_true_iff in H as [H1 H2]. destruct (IH H2) as [A B]. destruct (upper_lower c H1) as [C D].
  rewrite A, B, C, D. split; reflexivity.
Qed.
Lemma forallb_imp {A} (p q : A -> bool) l : (forall x, p x = true -> q x = true) ->
  forallb p l = true -> forallb q l = true.
Proof. rewrite !forallb_forall. auto. Qed.
Lemma digit_not_key c : is_digit c = true -> key_char c = false.
Proof. intro H. unfold key_char. rewrite H. reflexivity. Qed.
Lemma upper_letter c : is_upper c = true -> is_letter c = true.
Proof. unfold is_letter. intros ->. apply orb_true_r. Qed.
(** What can stand in a written key after the name. *)
Definition key_tail (c : ascii) : bool := is_digit c || Ascii.eqb c "@"%char || is_upper c.
Lemma tail_nospace c : key_tail c = true -> negb (is_space c) = true /\ Ascii.eqb ":"%char c = false.
Proof. destruct c as [[] [] [] [] [] [] [] []]; vm_compute; intro H; try discriminate; split; reflexivity. Qed.

(** The written key is taken apart again, whatever its number. *)
Lemma parse_written K d t s : forallb key_char K = true -> forallb is_digit d = true -> plain_lang t ->
  parse_item (K ++ d ++ lang_suffix t) s = (K, mkT s (t_lang t) (t_trans t), valid_key K).
Proof.
  intros HK HD HL. unfold parse_item, parse_key.
  assert (E : span key_char (K ++ d ++ lang_suffix t) = (K, d ++ lang_suffix t)).
  { apply span_app_all; [exact HK|]. destruct d as [|c d].
    - unfold lang_suffix. destruct (t_lang t) as [[|a l]|]; [exact I| |exact I].
      destruct (t_trans t); reflexivity.
    - cbn in HD. apply andb_true_iff in HD as [H _]. cbn. apply digit_not_key, H. }
  rewrite E.
  assert (E2 : span is_digit (d ++ lang_suffix t) = (d, lang_suffix t)).
  { apply span_app_all; [exact HD|]. unfold lang_suffix. destruct (t_lang t) as [[|a l]|]; [exact I| |exact I].
    destruct (t_trans t); reflexivity. }
  rewrite E2. cbn [snd]. unfold lang_suffix, plain_lang in *. destruct t as [dt lg tr].
  cbn [t_lang t_trans] in *. destruct lg as [l|].
  - destruct HL as [NE LW]. destruct l as [|a l]; [congruence|].
    destruct (map_upper_lower _ LW) as [A B].
    pose proof (forallb_imp _ is_letter _ upper_letter B) as C.
    set (u := map to_upper (a :: l)) in *.
    assert (NU : match u with [] => False | c :: _ => c <> "@"%char end).
    { unfold u in *. cbn [map]. cbn [map forallb] in B. apply andb_true_iff in B as [B _].
      intro X. rewrite X in B. discriminate. }
    destruct tr.
    + change (S_ "@" ++ u) with ("@"%char :: u). cbv iota beta. destruct u as [|c u']; [contradiction|].
      assert (X : match c :: u' with "@"%char :: l0 => (true, l0) | _ => (false, c :: u') end = (false, c :: u')).
      { destruct c as [[] [] [] [] [] [] [] []]; try reflexivity. congruence. }
      rewrite X, C, A. reflexivity.
    + change (S_ "@@" ++ u) with ("@"%char :: "@"%char :: u). cbv iota beta. rewrite C.
      destruct u as [|c u']; [contradiction|]. rewrite A. reflexivity.
  - rewrite HL. reflexivity.
Qed.

Section Round.
Context (unesc : str -> str) (omd : str -> option str) (fix_date : str -> option str)
        (conv : str -> mtext -> mval) (is_fileinfo : str -> bool).
(** [html.unescape] changes nothing where there is no ampersand. *)
Hypothesis unesc_plain : forall s, char_in "&"%char s = false -> unesc s = s.

Lemma biblio_line b k s : trimmed k -> char_in ":"%char k = false -> starts_with (S_ "!") k = false ->
  k <> S_ "system-decoration" -> starts_with (S_ "RDF**") k = false -> plain_text s ->
  (k = S_ "OMD" -> b = true /\ omd s = Some s) ->
  biblio_item unesc omd b (ref_line k (flat_map nl_char s)) = [(k, s)].
Proof.
  intros TK NC NB NS NR (TS & NA & NE) OM.
  assert (KN : k <> []) by (intro X; subst; destruct TK as [[] _]).
  assert (SN : s <> []) by (intro X; subst; destruct TS as [[] _]).
  pose proof (nl_trimmed s TS) as TV. pose proof (nl_amp s NA) as AV.
  destruct (C70_reference_partial [] k [] (S_ " ") (flat_map nl_char s) []
              eq_refl eq_refl eq_refl eq_refl (strip_trimmed k TK) (strip_trimmed _ TV) NC KN NB)
    as (RK & RV & _ & RG & _).
  assert (RE : record 3 [] k [] (S_ " ") (flat_map nl_char s) [] = ref_line k (flat_map nl_char s)).
  { unfold record, ref_line. rewrite !app_nil_r. cbn [app].
    destruct (flat_map nl_char s) as [|c r]; [destruct TV as [[] _]|]. reflexivity. }
  rewrite RE in RK, RV, RG. unfold biblio_item. rewrite RG, RK, RV. cbn [negb].
  apply str_eqb_neq in NS. rewrite NS, NR. cbn [orb]. rewrite (unesc_plain _ AV).
  assert (RP : replace (S_ "\n") [newline] (flat_map nl_char s) = s).
  { apply (replace_nl s NE). apply Nat.lt_succ_diag_r. }
  rewrite RP.
  destruct (str_eqb k (S_ "OMD")) eqn:EO.
  - apply str_eqb_eq in EO. destruct (OM EO) as [-> OS]. destruct s as [|c s]; [congruence|].
    rewrite OS. reflexivity.
  - destruct s as [|c s]; [congruence|]. reflexivity.
Qed.

Lemma row_facts K n : In (K, n) ref_table ->
  forallb key_char K = true /\ forallb (fun c => negb (is_space c)) K = true /\ char_in ":"%char K = false
  /\ starts_with (S_ "!") K = false /\ length K = 3 /\ assoc_str K ref_table = Some n
  /\ (n <> [] -> name_key n = Some K /\ forallb is_letter n = true /\ K <> S_ "MRD" /\ n <> S_ "otherContributor"
      /\ (K = S_ "OTL" -> n = S_ "title") /\ (K = S_ "OMD" -> n = S_ "movementName")).
Proof.
  intro H. pose proof rows_ok as R. rewrite forallb_forall in R. specialize (R _ H). unfold row_ok in R.
  apply andb_true_iff in R as [R RN]. apply andb_true_iff in R as [R RA].
  apply andb_true_iff in R as [R RL]. apply andb_true_iff in R as [R RE].
  apply andb_true_iff in R as [R RD]. apply andb_true_iff in R as [R RC].
  apply andb_true_iff in R as [R1 RB].
  apply negb_true_iff in RC, RD. apply Nat.eqb_eq in RL.
  split; [exact R1|]. split; [exact RB|]. split; [exact RC|]. split; [exact RD|]. split; [exact RL|].
  split.
  - destruct (assoc_str K ref_table) as [m|]; [|discriminate]. apply str_eqb_eq in RA. now rewrite RA.
  - intro NN. destruct n as [|c n]; [congruence|]. set (nm := c :: n) in *.
    repeat (match goal with h : _ && _ = true |- _ => apply andb_true_iff in h as [? ?] end).
    split. { destruct (name_key nm) as [k|]; [|discriminate]. f_equal. now apply str_eqb_eq. }
    split; [assumption|].
    repeat match goal with h : negb _ = true |- _ => apply negb_true_iff in h end.
    split; [now apply str_eqb_neq|]. split; [now apply str_eqb_neq|].
    split; intro E; match goal with h : str_eqb K ?x && negb (str_eqb _ ?y) = false |- _ = ?y =>
      assert (Z : str_eqb K x = true) by (now apply str_eqb_eq); rewrite Z in h; cbn [andb] in h;
      apply negb_false_iff in h; now apply str_eqb_eq end.
Qed.

Lemma suffix_tail t : plain_lang t -> forallb key_tail (lang_suffix t) = true.
Proof.
  unfold plain_lang, lang_suffix. destruct (t_lang t) as [[|a l]|]; intro H; try reflexivity.
  destruct H as [_ H]. destruct (map_upper_lower _ H) as [_ B]. rewrite forallb_app.
  apply andb_true_iff. split; [destruct (t_trans t); reflexivity|].
  revert B. apply forallb_imp. intros c E. unfold key_tail. rewrite E. apply orb_true_r.
Qed.
Lemma digits_tail d : forallb is_digit d = true -> forallb key_tail d = true.
Proof. apply forallb_imp. intros c E. unfold key_tail. rewrite E. reflexivity. Qed.

(** A key made of a reference key and a tail can be written and read. *)
Lemma key_with_tail K n tl : In (K, n) ref_table -> forallb key_tail tl = true ->
  trimmed (K ++ tl) /\ char_in ":"%char (K ++ tl) = false /\ starts_with (S_ "!") (K ++ tl) = false
  /\ K ++ tl <> S_ "system-decoration" /\ starts_with (S_ "RDF**") (K ++ tl) = false.
Proof.
  intros H T. destruct (row_facts K n H) as (A & B & C & D & L & _).
  assert (X : forallb (fun c => negb (is_space c)) (K ++ tl) = true).
  { rewrite forallb_app, B. cbn [andb]. revert T. apply forallb_imp. intros c E. apply (tail_nospace c E). }
  destruct K as [|a [|b [|c [|]]]]; try discriminate L.
  split. { apply nospace_trimmed; [discriminate|exact X]. }
  split.
  { unfold char_in in *. rewrite existsb_app, C. cbn [orb]. rewrite forallb_forall in T.
    apply not_true_is_false. intro E. apply existsb_exists in E as (x & Hx & Ex).
    destruct (tail_nospace x (T x Hx)) as [_ Z]. congruence. }
  split. { cbn in *. exact D. }
  split.
  { intro E. cbn [app] in E.
    destruct tl as [|d tl]; [discriminate|]. cbn [forallb] in T. apply andb_true_iff in T as [T _].
    injection E as -> -> -> -> _. discriminate T. }
  { destruct tl as [|d tl]; [cbn; rewrite !andb_false_r; reflexivity|].
    cbn [forallb] in T. apply andb_true_iff in T as [T _].
    change (starts_with (S_ "RDF**") ([a; b; c] ++ d :: tl)) with
      (Ascii.eqb "R" a && (Ascii.eqb "D" b && (Ascii.eqb "F" c && (Ascii.eqb "*" d && starts_with (S_ "*") tl)))).
    assert (Z : Ascii.eqb "*" d = false).
    { apply Ascii.eqb_neq. intro; subst. discriminate T. }
    rewrite Z. cbn [andb]. rewrite !andb_false_r. reflexivity. }
Qed.

Definition data_of (v : mval) : str :=
  match v with MText t | MContrib _ (t :: _) => t_data t | MContrib _ [] => [] | MOther s => s end.
Definition takes (n : str) (v : mval) (kv : str * str) : Prop := forall md,
  read_item fix_date conv md kv = if starts_with (S_ "raw:") n then md ++ [(n, v)] else add_new n v md.
Definition good_line (n : str) (v : mval) (line : str) : Prop := exists k,
  biblio_item unesc omd (is_header n) line = [(k, data_of v)] /\ takes n v (k, data_of v)
  /\ (k = S_ "OTL" -> n = S_ "title") /\ (k = S_ "OMD" -> n = S_ "movementName").

Lemma with_index_digits K idx : exists d, with_index K idx = K ++ d /\ forallb is_digit d = true.
Proof.
  unfold with_index. destruct (0 <? idx)%N.
  - exists (show_N idx). split; [reflexivity|apply show_N_digits].
  - exists []. rewrite app_nil_r. split; reflexivity.
Qed.

Lemma value_string_data v : value_string v = flat_map nl_char (data_of v).
Proof. unfold value_string. rewrite replace_newline. destruct v as [t|r [|t l]|s]; reflexivity. Qed.

(** No name with a reference key looks like another kind of name. *)
Lemma letters_colon p n : forallb is_letter n = true -> forallb is_letter p = false -> starts_with p n = false.
Proof.
  revert n. induction p as [|a p IH]; intros n H P; [discriminate|].
  destruct n as [|c n]; [reflexivity|]. cbn [starts_with]. destruct (Ascii.eqb a c) eqn:E; [|reflexivity].
  apply Ascii.eqb_eq in E. subst c. cbn [forallb] in *. apply andb_true_iff in H as [H1 H2].
  rewrite H1 in P. cbn [andb] in *. apply IH; assumption.
Qed.

Lemma OTL_tail K d t : length K = 3 -> (K ++ d ++ lang_suffix t = S_ "OTL" \/ K ++ d ++ lang_suffix t = S_ "OMD") ->
  d = [] /\ lang_suffix t = [].
Proof.
  intros L H.
  assert (X : length (K ++ d ++ lang_suffix t) = 3) by (destruct H as [-> | ->]; reflexivity).
  rewrite !app_length, L in X. destruct d; [|cbn in X; lia]. destruct (lang_suffix t); [split; reflexivity|cbn in X; lia].
Qed.

Lemma valid_row K n : In (K, n) ref_table -> valid_key K = true.
Proof.
  intro H. unfold valid_key. apply existsb_exists. exists (K, n). split; [exact H|]. apply str_eqb_refl.
Qed.

(** The line of a named item, with any number. *)
Lemma named_line K n t v idx : In (K, n) ref_table -> n <> [] -> (v = MText t \/ v = MContrib n [t]) ->
  conv n t = v -> plain_text (t_data t) -> plain_lang t ->
  (n = S_ "movementName" -> v = MText t /\ omd (t_data t) = Some (t_data t)) ->
  good_line n v (ref_line (with_index K idx ++ lang_suffix t) (value_string v)).
Proof.
  intros H NN HV HC PT PL MV. destruct (row_facts K n H) as (KA & KB & KC & KD & KL & KE & KN).
  destruct (KN NN) as (NK & NL & NM & NO & KT & KM).
  destruct (with_index_digits K idx) as (d & ED & HD). rewrite ED, <- app_assoc.
  assert (DV : data_of v = t_data t) by (destruct HV as [-> | ->]; reflexivity).
  assert (HT : forallb key_tail (d ++ lang_suffix t) = true).
  { rewrite forallb_app, (digits_tail d HD), (suffix_tail t PL). reflexivity. }
  destruct (key_with_tail K n _ H HT) as (A & B & C & D & E).
  assert (XO : K ++ d ++ lang_suffix t = S_ "OTL" -> n = S_ "title").
  { intro X. destruct (OTL_tail K d t KL (or_introl X)) as [-> Z]. rewrite Z, !app_nil_r in X. auto. }
  assert (XM : K ++ d ++ lang_suffix t = S_ "OMD" -> n = S_ "movementName").
  { intro X. destruct (OTL_tail K d t KL (or_intror X)) as [-> Z]. rewrite Z, !app_nil_r in X. auto. }
  exists (K ++ d ++ lang_suffix t). rewrite value_string_data, DV.
  split.
  { apply biblio_line; try assumption. intro X. specialize (XM X). destruct (MV XM) as [_ O].
    split; [rewrite XM; reflexivity|exact O]. }
  split; [|split; assumption].
  intro md. unfold read_item. cbn [fst snd]. rewrite (parse_written K d t _ KA HD PL).
  assert (ND : str_eqb K (S_ "MRD") = false) by (now apply str_eqb_neq). rewrite ND, KE.
  rewrite (letters_colon (S_ "raw:") n NL eq_refl).
  destruct n as [|a n]; [congruence|]. f_equal. rewrite <- HC. f_equal. now destruct t.
Qed.

Lemma item_written c n v : lasting omd conv n v -> is_fileinfo n = false ->
  exists c' line, write_item is_fileinfo c (n, v) = Some (c', Some line) /\ good_line n v line.
Proof.
  intros HL HF. destruct HL as [K n t v H NN HV HC PT PL MV|K t H NI PT PL|r t HR PT TL TT|k s TK NC NB NS NR SF PT].
  - (* a named item *)
    destruct (row_facts K n H) as (KA & KB & KC & KD & KL & KE & KN).
    destruct (KN NN) as (NK & NL & NM & NO & KT & KM).
    assert (P1 := letters_colon (S_ "raw:") n NL eq_refl).
    assert (P2 := letters_colon (S_ "humdrumraw:") n NL eq_refl).
    assert (P3 := letters_colon (S_ "humdrum:") n NL eq_refl).
    assert (HK : hd_key n = Some K) by (unfold hd_key; rewrite NK; reflexivity).
    assert (CK : exists k, count_key n v = Some (Some (K ++ k))).
    { unfold count_key. destruct HV as [-> | ->].
      - destruct (has_lang t); rewrite HK; [eexists; reflexivity|exists []; now rewrite app_nil_r].
      - rewrite HK. exists []. now rewrite app_nil_r. }
    destruct CK as [k CK].
    assert (IL : forall idx, item_line idx n v = Some (ref_line (with_index K idx ++ lang_suffix t) (value_string v))).
    { intro idx. unfold item_line. rewrite P1, P2, P3, HK. destruct HV as [-> | ->]; reflexivity. }
    assert (NU : exists c' line, numbered c n v = Some (c', Some line) /\ good_line n v line).
    { unfold numbered. rewrite CK. destruct K as [|a K]; [discriminate KL|]. cbn [app]. rewrite IL. cbn [option_map].
      eexists _, _. split; [reflexivity|]. apply named_line; assumption. }
    unfold write_item. destruct (str_eqb n (S_ "movementName")) eqn:EM.
    { rewrite CK, IL. cbn [option_map]. eexists _, _. split; [reflexivity|]. apply named_line; assumption. }
    destruct (is_header n); [exact NU|]. rewrite P1, P2, P3, HF. cbn [orb].
    apply str_eqb_neq in NO. rewrite NO. exact NU.
  - (* another reference key *)
    destruct (row_facts K [] H) as (KA & KB & KC & KD & KL & KE & _).
    assert (HH : is_header (S_ "humdrum:" ++ K) = false) by reflexivity.
    unfold write_item. rewrite HH.
    change (str_eqb (S_ "humdrum:" ++ K) (S_ "movementName")) with false.
    change (starts_with (S_ "humdrum:") (S_ "humdrum:" ++ K)) with (starts_with [] K).
    change (starts_with (S_ "humdrumraw:") (S_ "humdrum:" ++ K)) with false.
    change (starts_with (S_ "raw:") (S_ "humdrum:" ++ K)) with false.
    assert (SW : starts_with [] K = true) by (destruct K; reflexivity). rewrite SW. cbn [orb].
    unfold item_line. change (starts_with (S_ "raw:") (S_ "humdrum:" ++ K)) with false.
    change (starts_with (S_ "humdrumraw:") (S_ "humdrum:" ++ K)) with false.
    change (starts_with (S_ "humdrum:") (S_ "humdrum:" ++ K)) with (starts_with [] K). rewrite SW.
    change (skipn 8 (S_ "humdrum:" ++ K)) with K. cbn [option_map].
    eexists _, _. split; [reflexivity|].
    assert (HT := suffix_tail t PL). destruct (key_with_tail K [] _ H HT) as (A & B & C & D & E).
    change (with_index K 0) with K. exists (K ++ lang_suffix t). rewrite value_string_data. cbn [data_of].
    assert (NOT : forall X, In (X, []) ref_table -> str_eqb X (S_ "OTL") = false /\ str_eqb X (S_ "OMD") = false).
    { intros X HX. destruct (row_facts X [] HX) as (_ & _ & _ & _ & _ & EX & _).
      split; apply str_eqb_neq; intro; subst X; vm_compute in EX; discriminate. }
    destruct (NOT K H) as [N1 N2]. apply str_eqb_neq in N1, N2.
    assert (X1 : K ++ lang_suffix t <> S_ "OTL").
    { intro X. destruct (OTL_tail K [] t KL (or_introl X)) as [_ Z]. rewrite Z, app_nil_r in X. auto. }
    assert (X2 : K ++ lang_suffix t <> S_ "OMD").
    { intro X. destruct (OTL_tail K [] t KL (or_intror X)) as [_ Z]. rewrite Z, app_nil_r in X. auto. }
    split. { apply biblio_line; try assumption. congruence. }
    split; [|split; congruence].
    intro md. change (starts_with (S_ "raw:") (S_ "humdrum:" ++ K)) with false. cbv iota.
    unfold read_item. cbn [fst snd].
    pose proof (parse_written K [] t (t_data t) KA eq_refl PL) as PW. cbn [app] in PW. rewrite PW.
    assert (NX : forall X, In X [S_ "ACO"; S_ "MPN"; S_ "MPS"; S_ "PED"; S_ "CDT"; S_ "RDT"; S_ "MRD"; S_ "MPD"; S_ "MDT"; S_ "YOY"; S_ "END"] ->
              str_eqb K X = false).
    { intros X IX. apply str_eqb_neq. intro; subst X. exact (NI IX). }
    rewrite (NX (S_ "MRD")) by (cbn; tauto). rewrite KE, (NX (S_ "ACO")) by (cbn; tauto).
    rewrite (valid_row K [] H).
    assert (KR : key_role K = None).
    { unfold key_role. cbn [assoc_str]. rewrite (NX (S_ "MPN")), (NX (S_ "MPS")), (NX (S_ "PED")) by (cbn; tauto). reflexivity. }
    assert (DK : date_key K = false).
    { unfold date_key. cbn [existsb].
      rewrite (NX (S_ "CDT")), (NX (S_ "RDT")), (NX (S_ "MRD")), (NX (S_ "MPD")), (NX (S_ "MDT")), (NX (S_ "YOY")), (NX (S_ "END")) by (cbn; tauto).
      reflexivity. }
    rewrite KR, DK. destruct t; reflexivity.
  - (* a performer or the like *)
    unfold write_item.
    change (str_eqb (S_ "otherContributor") (S_ "movementName")) with false.
    change (is_header (S_ "otherContributor")) with false.
    change (starts_with (S_ "humdrumraw:") (S_ "otherContributor") || starts_with (S_ "humdrum:") (S_ "otherContributor")
            || starts_with (S_ "raw:") (S_ "otherContributor")) with false.
    rewrite HF. change (str_eqb (S_ "otherContributor") (S_ "otherContributor")) with true. cbv iota.
    assert (RK : exists K, role_key r = Some K /\ In (K, []) ref_table /\ key_role K = Some r
                 /\ str_eqb K (S_ "MRD") = false /\ str_eqb K (S_ "ACO") = false /\ K <> S_ "OTL" /\ K <> S_ "OMD").
    { assert (TB : forall K, existsb (fun x => str_eqb K (fst x) && str_eqb [] (snd x)) ref_table = true -> In (K, []) ref_table).
      { intros K E. apply existsb_exists in E as ([a b] & I1 & I2). apply andb_true_iff in I2 as [I2 I3].
        apply str_eqb_eq in I2, I3. cbn in I2, I3. subst. exact I1. }
      destruct HR as [<-|[<-|[<-|[]]]].
      - exists (S_ "MPN"). split; [reflexivity|]. split; [apply TB; reflexivity|].
        repeat (split; [reflexivity|]). split; discriminate.
      - exists (S_ "MPS"). split; [reflexivity|]. split; [apply TB; reflexivity|].
        repeat (split; [reflexivity|]). split; discriminate.
      - exists (S_ "PED"). split; [reflexivity|]. split; [apply TB; reflexivity|].
        repeat (split; [reflexivity|]). split; discriminate. }
    destruct RK as (K & RK & H & KR & NM & NA & NO & NV). rewrite RK. eexists _, _. split; [reflexivity|].
    destruct (row_facts K [] H) as (KA & KB & KC & KD & KL & KE & _).
    unfold hum_line. rewrite app_nil_r.
    destruct (with_index_digits K (count_of c K)) as (d & ED & HD). rewrite ED.
    destruct (key_with_tail K [] _ H (digits_tail d HD)) as (A & B & C & D & E).
    assert (LS : lang_suffix t = []) by (unfold lang_suffix; rewrite TL; reflexivity).
    assert (PL : plain_lang t) by (unfold plain_lang; rewrite TL; exact TT).
    assert (XO : K ++ d <> S_ "OTL" /\ K ++ d <> S_ "OMD").
    { split; intro X.
      - assert (X' : K ++ d ++ lang_suffix t = S_ "OTL") by (rewrite LS, app_nil_r; exact X).
        destruct (OTL_tail K d t KL (or_introl X')) as [-> _]. rewrite app_nil_r in X. auto.
      - assert (X' : K ++ d ++ lang_suffix t = S_ "OMD") by (rewrite LS, app_nil_r; exact X).
        destruct (OTL_tail K d t KL (or_intror X')) as [-> _]. rewrite app_nil_r in X. auto. }
    exists (K ++ d). rewrite value_string_data. cbn [data_of].
    split. { apply biblio_line; try assumption. intro X. destruct XO. congruence. }
    split; [|destruct XO; split; congruence].
    intro md. change (starts_with (S_ "raw:") (S_ "otherContributor")) with false. cbv iota.
    unfold read_item. cbn [fst snd].
    pose proof (parse_written K d t (t_data t) KA HD PL) as PW. rewrite LS, app_nil_r in PW. rewrite PW, NM, KE, NA.
    rewrite (valid_row K [] H), KR. destruct t; reflexivity.
  - (* a free key *)
    assert (HH : is_header (S_ "raw:" ++ k) = false) by reflexivity.
    unfold write_item. rewrite HH.
    change (str_eqb (S_ "raw:" ++ k) (S_ "movementName")) with false.
    change (starts_with (S_ "raw:") (S_ "raw:" ++ k)) with (starts_with [] k).
    assert (SW : starts_with [] k = true) by (destruct k; reflexivity). rewrite SW, !orb_true_r.
    unfold item_line. change (starts_with (S_ "raw:") (S_ "raw:" ++ k)) with (starts_with [] k). rewrite SW.
    cbn [option_map]. eexists _, _. split; [reflexivity|].
    change (skipn 4 (S_ "raw:" ++ k)) with k.
    assert (SFK : forall K n, In (K, n) ref_table -> k <> K).
    { intros K n H X. apply SF. exists K, [], []. split; [apply in_map_iff; exists (K, n); split; [reflexivity|exact H]|].
      split; [reflexivity|]. split; [reflexivity|]. left. rewrite app_nil_r. exact X. }
    assert (INK : forall K, valid_key K = true -> In K (map fst ref_table)).
    { intros K E. apply existsb_exists in E as ([a b] & I1 & I2). apply str_eqb_eq in I2. cbn in I2. subst a.
      apply in_map_iff. exists (K, b). split; [reflexivity|exact I1]. }
    assert (NOTK : forall K, valid_key K = true -> k <> K).
    { intros K V X. apply INK in V. apply in_map_iff in V as ([a b] & E & I). cbn in E. subst a. exact (SFK K b I X). }
    exists k. rewrite value_string_data. cbn [data_of t_data].
    split. { apply biblio_line; try assumption. intro X. exfalso. exact (NOTK (S_ "OMD") eq_refl X). }
    split.
    2:{ split; intro X; exfalso; [exact (NOTK (S_ "OTL") eq_refl X)|exact (NOTK (S_ "OMD") eq_refl X)]. }
    intro md. change (starts_with (S_ "raw:") (S_ "raw:" ++ k)) with (starts_with [] k). rewrite SW.
    unfold read_item. cbn [fst snd].
    assert (PI : exists a t, parse_item k s = (a, t, false) /\ valid_key a = false).
    { unfold parse_item. destruct (parse_key k) as [[[a l] two]|] eqn:PK.
      - assert (VA : valid_key a = false).
        { apply not_true_is_false. intro V. apply SF.
          unfold parse_key in PK. pose proof (span_join key_char k) as J1.
          destruct (span key_char k) as [a0 r]. cbn [fst snd] in J1.
          pose proof (span_join is_digit r) as J2. pose proof (span_fst_all is_digit r) as J3.
          destruct (span is_digit r) as [d r2]. cbn [fst snd] in *.
          assert (CASES : a0 = a /\ forallb is_letter l = true /\
                          (r2 = [] \/ r2 = S_ "@" ++ l \/ r2 = S_ "@@" ++ l)).
          { destruct r2 as [|x r1]; [injection PK as <- <- <-; split; [reflexivity|split; [reflexivity|left; reflexivity]]|].
            destruct (Ascii.eqb x "@"%char) eqn:EX.
            2:{ exfalso. revert PK. destruct x as [[] [] [] [] [] [] [] []]; try discriminate. }
            apply Ascii.eqb_eq in EX. subst x.
            assert (Z : (exists l', r1 = "@"%char :: l' /\ (if forallb is_letter l' then Some (a0, l', true) else None) = Some (a, l, two))
                        \/ (if forallb is_letter r1 then Some (a0, r1, false) else None) = Some (a, l, two)).
            { destruct r1 as [|y l']; [right; exact PK|].
              destruct (Ascii.eqb y "@"%char) eqn:EY.
              - apply Ascii.eqb_eq in EY. subst y. left. exists l'. split; [reflexivity|exact PK].
              - right. destruct y as [[] [] [] [] [] [] [] []]; try exact PK; discriminate. }
            destruct Z as [(l' & -> & Z)|Z].
            - destruct (forallb is_letter l') eqn:F; [|discriminate]. injection Z as <- <- <-.
              split; [reflexivity|]. split; [exact F|]. right; right; reflexivity.
            - destruct (forallb is_letter r1) eqn:F; [|discriminate]. injection Z as <- <- <-.
              split; [reflexivity|]. split; [exact F|]. right; left; reflexivity. }
          destruct CASES as (-> & LL & CS). exists a, d, l. split; [apply INK, V|]. split; [exact J3|]. split; [exact LL|].
          rewrite <- J1, <- J2. destruct CS as [-> | [-> | ->]]; [left; rewrite app_nil_r; reflexivity|right; left; reflexivity|right; right; reflexivity]. }
        rewrite VA. eexists _, _. split; [reflexivity|exact VA].
      - eexists _, _. split; [reflexivity|]. apply not_true_is_false. intro V. exact (NOTK k V eq_refl). }
    destruct PI as (a & t & PI & VA). rewrite PI.
    assert (AV : forall X, valid_key X = true -> str_eqb a X = false).
    { intros X V. apply str_eqb_neq. intro; subst. congruence. }
    rewrite (AV (S_ "MRD") eq_refl), (AV (S_ "ACO") eq_refl).
    assert (AN : assoc_str a ref_table = None).
    { revert VA. unfold valid_key. clear. induction ref_table as [|[x y] l IH]; [reflexivity|].
      cbn [existsb assoc_str fst]. intro E. apply orb_false_iff in E as [E1 E2]. rewrite E1. auto. }
    rewrite AN. reflexivity.
Qed.

(** Texts with the same words and language, or equal values. *)
Definition alike (a b : mval) : Prop :=
  match a, b with
  | MText x, MText y => t_data x = t_data y /\ t_lang x = t_lang y
  | _, _ => a = b
  end.
Lemma lang_eqb_eq a b : lang_eqb a b = true -> a = b.
Proof. destruct a, b; cbn; try discriminate; [|reflexivity]. intro H. f_equal. now apply str_eqb_eq. Qed.
Lemma mtexts_eqb_eq a : forall b, mtexts_eqb a b = true -> a = b.
Proof.
  induction a as [|x a IH]; intros [|y b]; cbn; try discriminate; [reflexivity|].
  intro H. apply andb_true_iff in H as [H1 H2]. unfold mtext_eqb in H1.
  apply andb_true_iff in H1 as [H1 H3]. apply andb_true_iff in H1 as [H1 H4].
  apply str_eqb_eq in H1. apply lang_eqb_eq in H4. apply eqb_prop in H3. f_equal; [|auto].
  destruct x, y; cbn in *. congruence.
Qed.
Lemma same_alike a b : same_value a b = true -> alike a b.
Proof.
  destruct a as [x|r x|x], b as [y|s y|y]; cbn; try discriminate.
  - intro H. apply andb_true_iff in H as [H1 H2]. split; [now apply str_eqb_eq|now apply lang_eqb_eq].
  - intro H. apply andb_true_iff in H as [H1 H2]. apply str_eqb_eq in H1. apply mtexts_eqb_eq in H2. congruence.
  - intro H. apply str_eqb_eq in H. congruence.
Qed.

(** music21's names about files; the writer leaves them out. *)
Definition file_names : list str := [S_ "software"; S_ "fileFormat"; S_ "filePath"; S_ "fileNumber"].
Hypothesis fileinfo_names : forall n, is_fileinfo n = true -> In n file_names.

Lemma skipped c n v : is_fileinfo n = true -> write_item is_fileinfo c (n, v) = Some (c, None).
Proof.
  intro H. pose proof (fileinfo_names n H) as I. unfold write_item.
  destruct I as [<-|[<-|[<-|[<-|[]]]]]; rewrite H; reflexivity.
Qed.

Definition kept (it : str * mval) : bool := negb (is_fileinfo (fst it)).
Lemma write_items_ok L : Forall (fun it => is_fileinfo (fst it) = true \/ lasting omd conv (fst it) (snd it)) L ->
  forall c, exists lines, write_items is_fileinfo c L = Some lines
  /\ Forall2 (fun it l => fst l = is_header (fst it) /\ good_line (fst it) (snd it) (snd l)) (filter kept L) lines.
Proof.
  induction L as [|[n v] L IH]; intros H c; [exists []; split; [reflexivity|constructor]|].
  pose proof (Forall_inv H) as H1. pose proof (IH (Forall_inv_tail H)) as IH'. cbn [fst snd] in H1.
  cbn [write_items filter]. unfold kept at 1. cbn [fst]. destruct (is_fileinfo n) eqn:F.
  - rewrite (skipped c n v F). destruct (IH' c) as (ls & E & R). rewrite E. exists ls. split; [reflexivity|exact R].
  - destruct H1 as [H1|H1]; [discriminate|]. destruct (item_written c n v H1 F) as (c' & l & E & G). rewrite E.
    destruct (IH' c') as (ls & E' & R). rewrite E'. exists ((is_header n, l) :: ls). split; [reflexivity|].
    constructor; [split; [reflexivity|exact G]|exact R].
Qed.

Definition pair_ok (it : str * mval) (kv : str * str) : Prop :=
  takes (fst it) (snd it) kv /\ snd kv = data_of (snd it)
  /\ (fst kv = S_ "OTL" -> fst it = S_ "title") /\ (fst kv = S_ "OMD" -> fst it = S_ "movementName").
Lemma biblio_pairs L lines :
  Forall2 (fun it l => fst l = is_header (fst it) /\ good_line (fst it) (snd it) (snd l)) L lines ->
  Forall2 pair_ok L (flat_map (fun l => biblio_item unesc omd (fst l) (snd l)) lines).
Proof.
  induction 1 as [|[n v] [b l] L lines [E (k & B & T & O & M)] R IH]; [constructor|].
  cbn [flat_map fst snd] in *. subst b. rewrite B. cbn [app]. constructor; [|exact IH].
  unfold pair_ok. cbn [fst snd]. auto.
Qed.

Lemma values_for_in L b k n : Forall2 pair_ok L b -> (forall it kv, pair_ok it kv -> fst kv = k -> fst it = n) ->
  forall s, In s (values_for k b) -> exists v, In (n, v) L /\ data_of v = s.
Proof.
  intros R X s. unfold values_for. intro I. apply in_map_iff in I as ([k' s'] & E & I). cbn in E. subst s'.
  apply filter_In in I as [I EK]. cbn in EK. apply str_eqb_eq in EK. subst k'.
  revert I. induction R as [|[m v] kv L b P R IH]; [intros []|]. intros [->|I].
  - pose proof (X _ _ P eq_refl) as N. cbn in N. subst m. destruct P as (_ & D & _). cbn in D.
    exists v. split; [left; reflexivity|auto].
  - destruct (IH I) as (w & A & B). exists w. split; [right; exact A|exact B].
Qed.

Lemma biblio_kept L lines :
  (forall a b, In (S_ "title", a) L -> In (S_ "movementName", b) L -> data_of a <> data_of b) ->
  Forall2 (fun it l => fst l = is_header (fst it) /\ good_line (fst it) (snd it) (snd l)) L lines ->
  Forall2 pair_ok L (biblio unesc omd lines).
Proof.
  intros TM R. pose proof (biblio_pairs L lines R) as P. unfold biblio.
  set (b := flat_map _ lines) in *.
  destruct (values_for (S_ "OTL") b) as [|t [|]] eqn:E1; try exact P.
  destruct (values_for (S_ "OMD") b) as [|m [|]] eqn:E2; try exact P.
  destruct (str_eqb t m) eqn:E; [|exact P]. exfalso. apply str_eqb_eq in E. subst m.
  destruct (values_for_in L b (S_ "OTL") (S_ "title") P (fun it kv X Y => proj1 (proj2 (proj2 X)) Y) t) as (v & I & D);
    [rewrite E1; left; reflexivity|].
  destruct (values_for_in L b (S_ "OMD") (S_ "movementName") P (fun it kv X Y => proj2 (proj2 (proj2 X)) Y) t) as (w & I' & D');
    [rewrite E2; left; reflexivity|].
  apply (TM v w I I'). congruence.
Qed.

Lemma get_app n a b : get n (a ++ b) = get n a ++ get n b.
Proof. unfold get. rewrite filter_app, map_app. reflexivity. Qed.
Lemma get_one n m v : get n [(m, v)] = if str_eqb m n then [v] else [].
Proof. unfold get. cbn. destruct (str_eqb m n); reflexivity. Qed.

Lemma fold_reads L kvs : Forall2 pair_ok L kvs -> forall md,
  (forall n, starts_with (S_ "raw:") n = false -> ForallOrdPairs (fun a b => ~ alike a b) (get n md ++ get n L)) ->
  forall n, get n (fold_left (read_item fix_date conv) kvs md) = get n md ++ get n L.
Proof.
  induction 1 as [|[m v] kv L kvs [T _] R IH]; intros md D n; [cbn; now rewrite app_nil_r|].
  cbn [fold_left].
  assert (ST : get n ((m, v) :: L) = get n [(m, v)] ++ get n L) by (rewrite <- get_app; reflexivity).
  assert (ST' : forall x, get x ((m, v) :: L) = get x [(m, v)] ++ get x L) by (intro; rewrite <- get_app; reflexivity).
  assert (AD : (if starts_with (S_ "raw:") m then md ++ [(m, v)] else add_new m v md) = md ++ [(m, v)]).
  { destruct (starts_with (S_ "raw:") m) eqn:EM; [reflexivity|]. unfold add_new.
    destruct (existsb (fun x => same_value x v) (get m md)) eqn:EX; [|reflexivity]. exfalso.
    apply existsb_exists in EX as (x & I & S). specialize (D m EM). rewrite ST', get_one, str_eqb_refl in D.
    apply same_alike in S. revert I D. generalize (get m md). induction l as [|y l IHl]; [intros []|].
    intros I D. cbn [app] in D. inversion D as [|? ? F D']; subst. destruct I as [->|I]; [|auto].
    rewrite Forall_forall in F. apply (F v); [|exact S]. apply in_or_app. right. left. reflexivity. }
  assert (TM : read_item fix_date conv md kv = md ++ [(m, v)]) by (etransitivity; [exact (T md)|exact AD]).
  rewrite TM, IH.
  - rewrite ST, get_app, <- app_assoc. reflexivity.
  - intros x EX. specialize (D x EX). rewrite ST', app_assoc in D. rewrite get_app. exact D.
Qed.

(** The order of writing keeps the values under each name in order. *)
Lemma get_write_order md n : get n (write_order md) = get n md.
Proof.
  unfold write_order. rewrite get_app.
  assert (G : forall (p : str * mval -> bool) b, (forall it, fst it = n -> p it = b) ->
            get n (filter p md) = if b then get n md else []).
  { intros p b Hp. unfold get. induction md as [|[m v] l IH]; [destruct b; reflexivity|].
    cbn [filter]. destruct (p (m, v)) eqn:Ep; cbn [filter fst]; destruct (str_eqb m n) eqn:E.
    - apply str_eqb_eq in E. rewrite (Hp (m, v) E) in Ep. subst b. cbn [map]. rewrite IH. reflexivity.
    - exact IH.
    - apply str_eqb_eq in E. rewrite (Hp (m, v) E) in Ep. subst b. exact IH.
    - exact IH. }
  rewrite (G _ (negb (is_header n))) by (intros it <-; reflexivity).
  assert (H : forall hs, NoDup hs -> get n (flat_map (fun h => filter (fun it => str_eqb (fst it) h) md) hs)
              = if existsb (str_eqb n) hs then get n md else []).
  { induction hs as [|h hs IH]; intro ND; [reflexivity|]. inversion ND as [|? ? NI ND']; subst.
    cbn [flat_map existsb]. rewrite get_app, IH by exact ND'.
    rewrite (G _ (str_eqb n h)) by (intros it <-; reflexivity).
    destruct (str_eqb n h) eqn:E; [|reflexivity]. apply str_eqb_eq in E. subst h. cbn [orb].
    destruct (existsb (str_eqb n) hs) eqn:X; [|now rewrite app_nil_r]. exfalso.
    apply existsb_exists in X as (y & I & Y). apply str_eqb_eq in Y. subst y. exact (NI I). }
  rewrite H.
  - fold (is_header n). destruct (is_header n); cbn [negb]; [now rewrite app_nil_r|reflexivity].
  - unfold header_names. repeat (constructor; [cbn; intuition discriminate|]). constructor.
Qed.

Lemma get_kept md n : is_fileinfo n = false -> get n (filter kept md) = get n md.
Proof.
  intro F. unfold get. induction md as [|[m v] l IH]; [reflexivity|]. cbn [filter]. unfold kept at 1. cbn [fst].
  destruct (is_fileinfo m) eqn:E; cbn [negb filter fst].
  - destruct (str_eqb m n) eqn:X; [apply str_eqb_eq in X; congruence|exact IH].
  - destruct (str_eqb m n); cbn [map]; rewrite IH; reflexivity.
Qed.

Lemma write_order_in md it : In it (write_order md) -> In it md.
Proof.
  unfold write_order. intro I. apply in_app_or in I as [I|I].
  - apply in_flat_map in I as (h & _ & I). apply filter_In in I. exact (proj1 I).
  - apply filter_In in I. exact (proj1 I).
Qed.

Lemma fop_sub {A} (R : A -> A -> Prop) (l : list A) : forall a, ForallOrdPairs R (a ++ l) -> ForallOrdPairs R l.
Proof. induction a as [|x a IH]; [auto|]. cbn. intro H. inversion H; auto. Qed.

Lemma round_trip md :
  Forall (fun it => is_fileinfo (fst it) = true \/ lasting omd conv (fst it) (snd it)) md ->
  is_fileinfo (S_ "software") = true ->
  (forall n, starts_with (S_ "raw:") n = false -> is_fileinfo n = false ->
     ForallOrdPairs (fun a b => ~ alike a b) (get n md)) ->
  (forall a b, In (S_ "title", a) md -> In (S_ "movementName", b) md -> data_of a <> data_of b) ->
  exists lines, write_metadata is_fileinfo md = Some lines /\
    forall n, is_fileinfo n = false -> get n (read_metadata unesc omd fix_date conv lines) = get n md.
Proof.
  intros H SW D TM. unfold write_metadata.
  assert (H' : Forall (fun it => is_fileinfo (fst it) = true \/ lasting omd conv (fst it) (snd it)) (write_order md)).
  { rewrite Forall_forall in *. intros it I. apply H, write_order_in, I. }
  destruct (write_items_ok _ H' []) as (lines & E & R). exists lines. split; [exact E|]. intros n F.
  set (L := filter kept (write_order md)) in *.
  assert (GL : forall x, is_fileinfo x = false -> get x L = get x md).
  { intros x X. unfold L. rewrite get_kept by exact X. apply get_write_order. }
  assert (GL' : forall x, is_fileinfo x = true -> get x L = []).
  { intros x X. unfold L, get.
    generalize (write_order md). intro l. induction l as [|[m v] l IH]; [reflexivity|]. cbn [filter]. unfold kept at 1. cbn [fst].
    destruct (is_fileinfo m) eqn:Em; cbn [negb filter fst]; [exact IH|].
    destruct (str_eqb m x) eqn:Y; [apply str_eqb_eq in Y; congruence|exact IH]. }
  assert (TM' : forall a b, In (S_ "title", a) L -> In (S_ "movementName", b) L -> data_of a <> data_of b).
  { intros a b I J. apply filter_In in I as [I _]. apply filter_In in J as [J _]. apply TM; apply write_order_in; assumption. }
  pose proof (biblio_kept L lines TM' R) as P. unfold read_metadata.
  rewrite (fold_reads L _ P).
  - rewrite get_one. destruct (str_eqb (S_ "software") n) eqn:X; [apply str_eqb_eq in X; congruence|]. apply GL, F.
  - intros x X. rewrite get_one. destruct (is_fileinfo x) eqn:FX.
    + rewrite GL' by exact FX. rewrite app_nil_r. destruct (str_eqb (S_ "software") x); repeat constructor.
    + destruct (str_eqb (S_ "software") x) eqn:Y; [apply str_eqb_eq in Y; congruence|]. cbn [app]. rewrite GL by exact FX. apply D; assumption.
Qed.
End Round.

(** ** C164 *)

(** C164.  The full statement: what a score's metadata says under any name is the same after
    the score is written to Humdrum and read back.  It fails in many ways; in the cases below
    references are read as html.unescape reads them, music21 makes contributors of composers
    and lyricists only, and nothing else is special. *)
Definition usual_conv (n : str) (t : mtext) : mval :=
  if str_eqb n (S_ "composer") || str_eqb n (S_ "lyricist") then MContrib n [t] else MText t.
Definition usual_fileinfo (n : str) : bool := existsb (str_eqb n) file_names.
Definition usual_read := read_metadata html_unescape (fun s => Some s) (fun s => Some s) usual_conv.
Definition usual_write := write_metadata usual_fileinfo.
Definition txt (s : str) : mval := MText (mkT s None false).

(** A language with a region is not read: the title becomes free text. *)
Theorem C164_region_refuted : exists l lines,
  usual_write [(S_ "title", MText (mkT (S_ "Song") (Some l) false))] = Some lines
  /\ get (S_ "title") (usual_read lines) = [].
Proof. exists (S_ "en-us"), [(true, S_ "!!!OTL@@EN-US: Song")]. vm_compute. split; reflexivity. Qed.
Print Assumptions C164_region_refuted.

(** Character references in the text are resolved, and a backslash followed by n becomes a
    line break. *)
Theorem C164_text_refuted : exists s s' lines lines',
  usual_write [(S_ "title", txt s)] = Some lines /\ usual_write [(S_ "title", txt s')] = Some lines'
  /\ get (S_ "title") (usual_read lines) = [txt (S_ "A:B")] /\ s = S_ "A&colon;B"
  /\ get (S_ "title") (usual_read lines') <> [txt s'] /\ s' = S_ "C:\notes".
Proof.
  exists (S_ "A&colon;B"), (S_ "C:\notes"), [(true, S_ "!!!OTL: A&colon;B")], [(true, S_ "!!!OTL: C:\notes")]. vm_compute.
  split; [reflexivity|]. split; [reflexivity|]. split; [reflexivity|]. split; [reflexivity|].
  split; [discriminate|reflexivity].
Qed.
Print Assumptions C164_text_refuted.

(** An original and a translation with the same words and language: one is lost. *)
Theorem C164_translation_refuted : exists a b lines, a <> b
  /\ usual_write [(S_ "title", a); (S_ "title", b)] = Some lines
  /\ get (S_ "title") (usual_read lines) = [a].
Proof.
  exists (MText (mkT (S_ "Requiem") (Some (S_ "la")) false)), (MText (mkT (S_ "Requiem") (Some (S_ "la")) true)),
    [(true, S_ "!!!OTL@@LA: Requiem"); (true, S_ "!!!OTL@LA: Requiem")]. vm_compute. split; [discriminate|]. split; reflexivity.
Qed.
Print Assumptions C164_translation_refuted.

(** A piece whose only title is also the name of its only movement loses the title. *)
Theorem C164_title_refuted : exists s lines,
  usual_write [(S_ "title", txt s); (S_ "movementName", txt s)] = Some lines
  /\ get (S_ "title") (usual_read lines) = [] /\ get (S_ "movementName") (usual_read lines) = [txt s].
Proof. exists (S_ "Allegro"), [(true, S_ "!!!OTL: Allegro"); (true, S_ "!!!OMD: Allegro")]. vm_compute. split; [|split]; reflexivity. Qed.
Print Assumptions C164_title_refuted.

(** A name without a reference key comes back as free text under another name. *)
Theorem C164_no_key_refuted : exists n s lines, usual_write [(n, txt s)] = Some lines
  /\ get n (usual_read lines) = [] /\ get (S_ "raw:" ++ n) (usual_read lines) = [txt s].
Proof. exists (S_ "abstract"), (S_ "About"), [(false, S_ "!!!abstract: About")]. vm_compute. split; [|split]; reflexivity. Qed.
Print Assumptions C164_no_key_refuted.

(** A poet becomes a lyricist; the language of a performer's name is lost; other roles too. *)
Theorem C164_role_refuted : exists r t lines lines' lines'',
  usual_write [(S_ "otherContributor", MContrib (S_ "poet") [t])] = Some lines
  /\ get (S_ "otherContributor") (usual_read lines) = [] /\ get (S_ "lyricist") (usual_read lines) = [MContrib (S_ "lyricist") [t]]
  /\ usual_write [(S_ "otherContributor", MContrib (S_ "performer") [mkT (S_ "Ann") (Some (S_ "de")) false])] = Some lines'
  /\ get (S_ "otherContributor") (usual_read lines') = [MContrib (S_ "performer") [mkT (S_ "Ann") None false]]
  /\ usual_write [(S_ "otherContributor", MContrib r [t])] = Some lines''
  /\ Forall (fun it => forall ts, snd it <> MContrib r ts) (usual_read lines'').
Proof.
  exists (S_ "dancer"), (mkT (S_ "Ann") None false), [(false, S_ "!!!LYR: Ann")], [(false, S_ "!!!MPN: Ann")],
    [(false, S_ "!!!otherContributor: Ann")]. vm_compute.
  split; [reflexivity|]. split; [reflexivity|]. split; [reflexivity|]. split; [reflexivity|]. split; [reflexivity|].
  split; [reflexivity|]. constructor; [intros; discriminate|]. constructor; [intros; discriminate|]. constructor.
Qed.
Print Assumptions C164_role_refuted.

(** C164, part: if every item is one that lasts (see [lasting]) or is about files, no two
    values under a name are alike, and no title is also the name of a movement, then the
    metadata can be written, and every name not about files has the same values in the same
    order after reading. *)
Theorem C164_metadata_partial : forall unesc omd fix_date conv is_fileinfo md,
  (forall s, char_in "&"%char s = false -> unesc s = s) ->
  (forall n, is_fileinfo n = true -> In n [S_ "software"; S_ "fileFormat"; S_ "filePath"; S_ "fileNumber"]) ->
  is_fileinfo (S_ "software") = true ->
  Forall (fun it => is_fileinfo (fst it) = true \/ lasting omd conv (fst it) (snd it)) md ->
  (forall n, starts_with (S_ "raw:") n = false -> is_fileinfo n = false ->
     ForallOrdPairs (fun a b => ~ alike a b) (get n md)) ->
  (forall a b, In (S_ "title", a) md -> In (S_ "movementName", b) md -> data_of a <> data_of b) ->
  exists lines, write_metadata is_fileinfo md = Some lines /\
    forall n, is_fileinfo n = false -> get n (read_metadata unesc omd fix_date conv lines) = get n md.
Proof. intros. now apply round_trip. Qed.
Print Assumptions C164_metadata_partial.

Example C164_nonvacuous :
  let md := [(S_ "software", txt (S_ "other"));
             (S_ "title", MText (mkT (S_ "Lied") (Some (S_ "de")) false));
             (S_ "title", MText (mkT (S_ "Song") (Some (S_ "en")) true));
             (S_ "composer", MContrib (S_ "composer") [mkT (S_ "Ann") None false]);
             (S_ "composer", MContrib (S_ "composer") [mkT (S_ "Bea") None false]);
             (S_ "movementName", txt (S_ "Allegro"));
             (S_ "humdrum:ONB", txt (S_ "a note"));
             (S_ "otherContributor", MContrib (S_ "performer") [mkT (S_ "Eve") None false]);
             (S_ "raw:mykey", txt (S_ "free"))] in
  Forall (fun it => usual_fileinfo (fst it) = true \/ lasting (fun s => Some s) usual_conv (fst it) (snd it)) md
  /\ usual_write md = Some [(true, S_ "!!!COM: Ann"); (true, S_ "!!!COM1: Bea"); (true, S_ "!!!OTL@@DE: Lied");
       (true, S_ "!!!OTL@EN: Song"); (true, S_ "!!!OMD: Allegro"); (false, S_ "!!!ONB: a note");
       (false, S_ "!!!MPN: Eve"); (false, S_ "!!!mykey: free")].
Proof.
  assert (TB : forall K n, existsb (fun x => str_eqb K (fst x) && str_eqb n (snd x)) ref_table = true -> In (K, n) ref_table).
  { intros K n E. apply existsb_exists in E as ([a b] & I1 & I2). apply andb_true_iff in I2 as [I2 I3].
    apply str_eqb_eq in I2, I3. cbn in I2, I3. subst. exact I1. }
  assert (PT : forall s, (trimmed s /\ char_in "&"%char s = false /\ no_escape_n s = true) -> plain_text s) by auto.
  split; [|vm_compute; reflexivity].
  constructor; [left; reflexivity|].
  constructor. { right. eapply (last_named _ _ (S_ "OTL") (S_ "title") (mkT (S_ "Lied") (Some (S_ "de")) false));
    [apply TB; reflexivity|discriminate|left; reflexivity|reflexivity|vm_compute; auto| |discriminate].
    split; [discriminate|reflexivity]. }
  constructor. { right. eapply (last_named _ _ (S_ "OTL") (S_ "title") (mkT (S_ "Song") (Some (S_ "en")) true));
    [apply TB; reflexivity|discriminate|left; reflexivity|reflexivity|vm_compute; auto| |discriminate].
    split; [discriminate|reflexivity]. }
  constructor. { right. eapply (last_named _ _ (S_ "COM") (S_ "composer") (mkT (S_ "Ann") None false));
    [apply TB; reflexivity|discriminate|right; reflexivity|reflexivity|vm_compute; auto|reflexivity|discriminate]. }
  constructor. { right. eapply (last_named _ _ (S_ "COM") (S_ "composer") (mkT (S_ "Bea") None false));
    [apply TB; reflexivity|discriminate|right; reflexivity|reflexivity|vm_compute; auto|reflexivity|discriminate]. }
  constructor. { right. eapply (last_named _ _ (S_ "OMD") (S_ "movementName") (mkT (S_ "Allegro") None false));
    [apply TB; reflexivity|discriminate|left; reflexivity|reflexivity|vm_compute; auto|reflexivity|auto]. }
  constructor. { right. apply (last_key _ _ (S_ "ONB")); [apply TB; reflexivity| |vm_compute; auto|reflexivity].
    cbn. intuition discriminate. }
  constructor. { right. apply last_role; [left; reflexivity|vm_compute; auto|reflexivity|reflexivity]. }
  constructor; [|constructor].
  right. apply (last_raw _ _ (S_ "mykey")); [vm_compute; auto|reflexivity|reflexivity|discriminate|reflexivity| |vm_compute; auto].
  intros (K & d & l & I & _ & _ & E).
  assert (NF : forallb (fun K => negb (starts_with K (S_ "mykey"))) (map fst ref_table) = true) by (vm_compute; reflexivity).
  rewrite forallb_forall in NF. specialize (NF K I). apply negb_true_iff in NF.
  assert (SP : forall x y, starts_with x (x ++ y) = true).
  { induction x as [|a x IH]; [destruct y; reflexivity|]. intro y. cbn [app starts_with]. rewrite Ascii.eqb_refl, IH. reflexivity. }
  assert (Z : exists y, S_ "mykey" = K ++ y) by (destruct E as [E|[E|E]]; eexists; exact E).
  destruct Z as [y Z]. rewrite Z, SP in NF. discriminate.
Qed.

(** ** C165 *)

(** C165.  Metadata that cannot be written: a text with a language under a name without
    reference key, or a contributor without names.  The full statement, that all metadata
    can be written, is false. *)
Theorem C165_writable_refuted : exists md md', usual_write md = None /\ usual_write md' = None
  /\ md = [(S_ "abstract", MText (mkT (S_ "About") (Some (S_ "en")) false))]
  /\ md' = [(S_ "composer", MContrib (S_ "composer") [])].
Proof. eexists. eexists. split; [|split; [|split; reflexivity]]; vm_compute; reflexivity. Qed.
Print Assumptions C165_writable_refuted.

(** Names written by their own key: raw:KEY, humdrum:KEY, humdrumraw:KEY. *)
Definition own_key (p n : str) : Prop := exists k, n = p ++ k.
Lemma starts_own p n : starts_with p n = true <-> own_key p n.
Proof.
  revert n. induction p as [|a p IH]; intro n; cbn [starts_with].
  - split; [intros _; exists n; reflexivity|destruct n; reflexivity].
  - destruct n as [|c n]; [split; [discriminate|intros [k E]; discriminate]|].
    split.
    + intro H. apply andb_true_iff in H as [E H]. apply Ascii.eqb_eq in E. subst c.
      apply IH in H as [k ->]. exists k. reflexivity.
    + intros [k E]. injection E as -> ->. rewrite Ascii.eqb_refl. apply IH. exists k. reflexivity.
Qed.

Lemma name_key_none n : name_key n = None <-> n = [] \/ ~ In n (map snd ref_table).
Proof.
  unfold name_key. generalize ref_table. intro l. induction l as [|[K m] l IH].
  - cbn. tauto.
  - cbn [filter snd]. destruct m as [|a m].
    + rewrite IH. cbn [map snd In]. split; [intros [H|H]|intros [H|H]]; auto.
      destruct n; [left; reflexivity|]. right. intros [X|X]; [discriminate|auto].
    + cbn [map assoc_str fst snd]. destruct (str_eqb n (a :: m)) eqn:E.
      * apply str_eqb_eq in E. split; [discriminate|]. intros [H|H]; [congruence|]. exfalso. apply H. left. auto.
      * apply str_eqb_neq in E. rewrite IH. cbn [In]. split; (intros [H|H]; [left; exact H|right]).
        -- intros [X|X]; [congruence|auto].
        -- auto.
Qed.

Definition fails (is_fileinfo : str -> bool) (n : str) (v : mval) : Prop :=
  is_fileinfo n = false /\ ~ own_key (S_ "raw:") n /\ ~ own_key (S_ "humdrumraw:") n
  /\ ((exists t l, v = MText t /\ t_lang t = Some l /\ l <> [] /\ ~ own_key (S_ "humdrum:") n
        /\ (n = [] \/ ~ In n (map snd ref_table)))
      \/ exists r, v = MContrib r []).

Lemma item_line_none idx n v : item_line idx n v = None <->
  ~ own_key (S_ "raw:") n /\ ~ own_key (S_ "humdrumraw:") n /\ exists r, v = MContrib r [].
Proof.
  unfold item_line. rewrite <- !starts_own.
  destruct (starts_with (S_ "raw:") n). { split; [discriminate|intros (H & _); exfalso; apply H; reflexivity]. }
  destruct (starts_with (S_ "humdrumraw:") n). { split; [discriminate|intros (_ & H & _); exfalso; apply H; reflexivity]. }
  destruct (if starts_with (S_ "humdrum:") n then (Some (skipn 8 n), skipn 8 n) else (hd_key n, n)) as [base plain].
  destruct v as [t|r [|t ts]|s].
  - split; [discriminate|intros (_ & _ & r & E); discriminate].
  - split; [|reflexivity]. intros _. split; [discriminate|]. split; [discriminate|]. exists r. reflexivity.
  - split; [discriminate|intros (_ & _ & r' & E); discriminate].
  - split; [discriminate|intros (_ & _ & r' & E); discriminate].
Qed.

Lemma hd_key_none n : ~ own_key (S_ "humdrumraw:") n -> (hd_key n = None <-> n = [] \/ ~ In n (map snd ref_table)).
Proof.
  intro H. rewrite <- name_key_none. unfold hd_key. destruct (name_key n) as [k|]; [split; discriminate|].
  destruct (starts_with (S_ "humdrumraw:") n) eqn:E; [|tauto]. exfalso. apply H, starts_own, E.
Qed.

Lemma omap_none {A B} (f : A -> B) o : option_map f o = None <-> o = None.
Proof. destruct o; cbn; split; congruence. Qed.

Lemma count_key_none n v : ~ own_key (S_ "humdrumraw:") n ->
  (count_key n v = None <-> exists t l, v = MText t /\ t_lang t = Some l /\ l <> [] /\ (n = [] \/ ~ In n (map snd ref_table))).
Proof.
  intro H. unfold count_key. destruct v as [t|r ts|s].
  - unfold has_lang. destruct (t_lang t) as [[|a l]|] eqn:E.
    + split; [discriminate|]. intros (t' & l & X & L & N & _). injection X as <-. congruence.
    + pose proof (hd_key_none n H) as HN. destruct (hd_key n) as [k|].
      * split; [discriminate|]. intros (t' & l' & X & L & N & Z). apply HN in Z. discriminate.
      * split; [|reflexivity]. intros _. exists t, (a :: l). split; [reflexivity|]. split; [exact E|].
        split; [discriminate|]. apply HN. reflexivity.
    + split; [discriminate|]. intros (t' & l & X & L & N & _). injection X as <-. congruence.
  - split; [discriminate|]. intros (t' & l & X & _). discriminate.
  - split; [discriminate|]. intros (t' & l & X & _). discriminate.
Qed.

Lemma numbered_none c n v : ~ own_key (S_ "humdrumraw:") n -> ~ own_key (S_ "raw:") n ->
  (numbered c n v = None <->
   (exists t l, v = MText t /\ t_lang t = Some l /\ l <> [] /\ (n = [] \/ ~ In n (map snd ref_table)))
   \/ exists r, v = MContrib r []).
Proof.
  intros H H'. unfold numbered. rewrite <- (count_key_none n v H).
  destruct (count_key n v) as [[[|a k]|]|]; [| | |split; [left; reflexivity|reflexivity]];
    rewrite omap_none, item_line_none; (split; [intros (_ & _ & X); right; exact X|intros [X|X]; [discriminate|auto]]).
Qed.

Lemma header_row n : is_header n = true -> n <> [] /\ In n (map snd ref_table)
  /\ starts_with (S_ "raw:") n = false /\ starts_with (S_ "humdrum:") n = false /\ starts_with (S_ "humdrumraw:") n = false
  /\ ~ In n file_names.
Proof.
  intro H. apply existsb_exists in H as (h & I & E). apply str_eqb_eq in E. subst h.
  assert (X : forallb (fun h => negb (str_eqb h []) && existsb (str_eqb h) (map snd ref_table)
                && negb (starts_with (S_ "raw:") h) && negb (starts_with (S_ "humdrum:") h)
                && negb (starts_with (S_ "humdrumraw:") h) && negb (existsb (str_eqb h) file_names)) header_names = true)
    by (vm_compute; reflexivity).
  rewrite forallb_forall in X. specialize (X n I).
  apply andb_true_iff in X as [X X6]. apply andb_true_iff in X as [X X5]. apply andb_true_iff in X as [X X4].
  apply andb_true_iff in X as [X X3]. apply andb_true_iff in X as [X1 X2].
  apply negb_true_iff in X1, X3, X4, X5, X6.
  split; [now apply str_eqb_neq|]. split.
  { apply existsb_exists in X2 as (y & Y & E). apply str_eqb_eq in E. subst y. exact Y. }
  split; [exact X3|]. split; [exact X4|]. split; [exact X5|].
  intro J. assert (Z : existsb (str_eqb n) file_names = true).
  { apply existsb_exists. exists n. split; [exact J|apply str_eqb_refl]. }
  congruence.
Qed.

Lemma not_starts p n : starts_with p n = false -> ~ own_key p n.
Proof. rewrite <- starts_own. congruence. Qed.

Lemma write_item_none is_fileinfo c n v : (forall n, is_fileinfo n = true -> In n file_names) ->
  (n = S_ "otherContributor" -> forall r, v <> MContrib r []) ->
  (write_item is_fileinfo c (n, v) = None <-> fails is_fileinfo n v).
Proof.
  intros FN OC. unfold write_item, fails.
  assert (HDR : is_header n = true -> forall o : option (counts * option str),
     (o = None <-> (exists t l, v = MText t /\ t_lang t = Some l /\ l <> [] /\ (n = [] \/ ~ In n (map snd ref_table))) \/ exists r, v = MContrib r []) ->
     (o = None <-> is_fileinfo n = false /\ ~ own_key (S_ "raw:") n /\ ~ own_key (S_ "humdrumraw:") n
        /\ ((exists t l, v = MText t /\ t_lang t = Some l /\ l <> [] /\ ~ own_key (S_ "humdrum:") n
              /\ (n = [] \/ ~ In n (map snd ref_table))) \/ exists r, v = MContrib r []))).
  { intros HH o HO. destruct (header_row n HH) as (A & B & C & D & E & F). rewrite HO.
    assert (FI : is_fileinfo n = false) by (apply not_true_is_false; intro X; apply F, FN, X).
    apply not_starts in C, D, E. split.
    - intro X. split; [exact FI|]. split; [exact C|]. split; [exact E|].
      destruct X as [(t & l & X1 & X2 & X3 & X4)|X]; [left; exists t, l; auto|right; exact X].
    - intros (_ & _ & _ & [(t & l & X1 & X2 & X3 & _ & X4)|X]); [left; exists t, l; auto|right; exact X]. }
  destruct (str_eqb n (S_ "movementName")) eqn:EM.
  { apply str_eqb_eq in EM.
    assert (HH : is_header n = true) by (rewrite EM; reflexivity). apply (HDR HH).
    destruct (header_row n HH) as (A & B & C & D & E & F). apply not_starts in C, E.
    rewrite <- (count_key_none n v E). destruct (count_key n v).
    - rewrite omap_none, item_line_none. split; [intros (_ & _ & X); right; exact X|intros [X|X]; [discriminate|auto]].
    - split; [left; reflexivity|reflexivity]. }
  destruct (is_header n) eqn:EH.
  { destruct (header_row n EH) as (A & B & C & D & E & F). apply not_starts in C, E.
    apply (HDR eq_refl). apply numbered_none; assumption. }
  destruct (starts_with (S_ "humdrumraw:") n || starts_with (S_ "humdrum:") n || starts_with (S_ "raw:") n) eqn:EP.
  { rewrite omap_none, item_line_none. split.
    - intros (A & B & C). split.
      + apply not_true_is_false. intro X. apply FN in X. destruct X as [<-|[<-|[<-|[<-|[]]]]]; discriminate EP.
      + split; [exact A|]. split; [exact B|]. right. exact C.
    - intros (F & A & B & [(t & l & X1 & X2 & X3 & X4 & X5)|X]); [|auto]. exfalso.
      rewrite <- starts_own in A, B, X4.
      destruct (starts_with (S_ "humdrumraw:") n), (starts_with (S_ "humdrum:") n), (starts_with (S_ "raw:") n);
        first [discriminate EP|apply A; reflexivity|apply B; reflexivity|apply X4; reflexivity]. }
  apply orb_false_iff in EP as [EP E3]. apply orb_false_iff in EP as [E1 E2]. apply not_starts in E1, E2, E3.
  destruct (is_fileinfo n) eqn:FI.
  { split; [discriminate|]. intros [X _]. discriminate. }
  assert (NUM : numbered c n v = None <-> false = false /\ ~ own_key (S_ "raw:") n /\ ~ own_key (S_ "humdrumraw:") n
        /\ ((exists t l, v = MText t /\ t_lang t = Some l /\ l <> [] /\ ~ own_key (S_ "humdrum:") n
              /\ (n = [] \/ ~ In n (map snd ref_table))) \/ exists r, v = MContrib r [])).
  { rewrite (numbered_none c n v E1 E3). split.
    - intro X. split; [reflexivity|]. split; [exact E3|]. split; [exact E1|].
      destruct X as [(t & l & X1 & X2 & X3 & X4)|X]; [left; exists t, l; auto|right; exact X].
    - intros (_ & _ & _ & [(t & l & X1 & X2 & X3 & _ & X4)|X]); [left; exists t, l; auto|right; exact X]. }
  destruct (str_eqb n (S_ "otherContributor")) eqn:EO; [|exact NUM].
  apply str_eqb_eq in EO. destruct v as [t|r ts|s]; try exact NUM.
  destruct (role_key r) as [k|]; [|exact NUM].
  split; [discriminate|]. intros (_ & _ & _ & [(t & l & X1 & _)|(r' & X)]); [discriminate|].
  exfalso. exact (OC EO r' X).
Qed.

(** C165, part: writing fails exactly if some item, not about files, is a text with a language
    under a name that has neither a reference key nor its own key, or is a contributor without
    names not under a raw key.  Nameless contributors with a role of their own are left out:
    they are written if the role has a key. *)
Theorem C165_writable_partial : forall is_fileinfo md,
  (forall n, is_fileinfo n = true -> In n [S_ "software"; S_ "fileFormat"; S_ "filePath"; S_ "fileNumber"]) ->
  (forall r, ~ In (S_ "otherContributor", MContrib r []) md) ->
  (write_metadata is_fileinfo md = None <-> exists n v, In (n, v) md /\ fails is_fileinfo n v).
Proof.
  intros fi md FN OC. unfold write_metadata.
  assert (W : forall L, (forall r, ~ In (S_ "otherContributor", MContrib r []) L) -> forall c,
            write_items fi c L = None <-> exists n v, In (n, v) L /\ fails fi n v).
  { induction L as [|[n v] L IH]; intros NO c; [split; [discriminate|intros (n & v & [] & _)]|].
    cbn [write_items].
    assert (OCN : n = S_ "otherContributor" -> forall r, v <> MContrib r []).
    { intros -> r ->. apply (NO r). left. reflexivity. }
    pose proof (write_item_none fi c n v FN OCN) as WN.
    assert (NO' : forall r, ~ In (S_ "otherContributor", MContrib r []) L) by (intros r X; apply (NO r); right; exact X).
    destruct (write_item fi c (n, v)) as [[c' line]|].
    - rewrite omap_none, (IH NO' c'). split.
      + intros (m & w & I & F). exists m, w. split; [right; exact I|exact F].
      + intros (m & w & [E|I] & F); [|exists m, w; auto]. injection E as <- <-. apply WN in F. discriminate.
    - split; [|reflexivity]. intros _. exists n, v. split; [left; reflexivity|]. apply WN. reflexivity. }
  assert (IO : forall it, In it (write_order md) <-> In it md).
  { intro it. split; [apply write_order_in|]. intro I. unfold write_order. apply in_or_app.
    destruct (is_header (fst it)) eqn:E.
    - left. apply existsb_exists in E as (h & J & E). apply in_flat_map. exists h. split; [exact J|].
      apply filter_In. split; [exact I|exact E].
    - right. apply filter_In. split; [exact I|]. rewrite E. reflexivity. }
  rewrite W.
  - split; intros (n & v & I & F); exists n, v; (split; [apply IO, I|exact F]).
  - intros r X. apply (OC r), IO, X.
Qed.
Print Assumptions C165_writable_partial.

Example C165_nonvacuous :
  fails usual_fileinfo (S_ "abstract") (MText (mkT (S_ "About") (Some (S_ "en")) false))
  /\ ~ fails usual_fileinfo (S_ "title") (MText (mkT (S_ "About") (Some (S_ "en")) false))
  /\ usual_write [(S_ "title", MText (mkT (S_ "About") (Some (S_ "en")) false))] = Some [(true, S_ "!!!OTL@@EN: About")].
Proof.
  assert (NI : ~ In (S_ "abstract") (map snd ref_table)).
  { intro I. assert (X : existsb (str_eqb (S_ "abstract")) (map snd ref_table) = true).
    { apply existsb_exists. exists (S_ "abstract"). split; [exact I|reflexivity]. }
    vm_compute in X. discriminate. }
  split; [|split; [|vm_compute; reflexivity]].
  - split; [reflexivity|]. split; [apply not_starts; reflexivity|]. split; [apply not_starts; reflexivity|].
    left. eexists _, _. split; [reflexivity|]. split; [reflexivity|]. split; [discriminate|].
    split; [apply not_starts; reflexivity|right; exact NI].
  - intros (_ & _ & _ & [(t & l & _ & _ & _ & _ & [X|X])|(r & X)]); try discriminate.
    apply X. assert (E : existsb (str_eqb (S_ "title")) (map snd ref_table) = true) by (vm_compute; reflexivity).
    apply existsb_exists in E as (y & I & E). apply str_eqb_eq in E. subst y. exact I.
Qed.

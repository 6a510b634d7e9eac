(** C159: chord symbols in MEI: which come back, with which text. *)
From Coq Require Import List Ascii String Arith NArith ZArith Lia Bool Permutation.
From Verif Require Import PyStr PyStrProofs ClefModel HarteModel HarteProofs HarteSpec PropsHarte HarmModel HarmProofs.
Import ListNotations.

Lemma denotes_stop_free t r p D : denotes t r p D -> stop_free t /\ t <> [] /\ t <> S_ "N".
Proof.
  intros (sh & ds & b & -> & Hr & _ & Hsh & Hds & Hb & _).
  assert (N1 : forall a, nth (p_step r) (S_ "CDEFGAB") a <> "."%char /\ nth (p_step r) (S_ "CDEFGAB") a <> "N"%char).
  { intro a. destruct r as [s al]. cbn [p_step] in *. do 7 (destruct s as [|s]; [split; discriminate|]). lia. }
  split; [|split; [discriminate|]].
  - unfold text, note. rewrite <- app_comm_cons. apply stop_free_cons; [apply N1|]. apply stop_free_app.
    { destruct (0 <=? p_alter r)%Z; intro H; apply repeat_spec in H; discriminate. }
    apply stop_free_app.
    + assert (S1 : stop_free sh).
      { destruct Hsh as [->|(imp & Hi)]; [intros []|]. intro Q.
        assert (A : forallb (fun k => negb (existsb (Ascii.eqb "."%char) (fst k))) shorthands = true) by (vm_compute; reflexivity).
        rewrite forallb_forall in A. specialize (A _ Hi). cbn [fst] in A. apply negb_true_iff in A.
        assert (existsb (Ascii.eqb "."%char) sh = true) by (apply existsb_exists; exists "."%char; split; [exact Q|reflexivity]). congruence. }
      assert (S2 : stop_free (join (S_ ",") ds)).
      { apply stop_free_join. intros d Hd. destruct (Hds d Hd) as [(a & n & -> & _)|(_ & a & n & ->)]; [apply stop_free_spell|].
        apply stop_free_cons; [discriminate|apply stop_free_spell]. }
      assert (S3 : stop_free (S_ ":" ++ sh)) by (apply stop_free_app; [intros [Q|[]]; discriminate|exact S1]).
      destruct sh as [|x sh], ds as [|d ds]; [intros []| |exact S3|];
        (apply stop_free_app; [intros [Q|[]]; discriminate|]; apply stop_free_app; [exact S1|];
         apply stop_free_app; [intros [Q|[]]; discriminate|]; apply stop_free_app; [exact S2|intros [Q|[]]; discriminate]).
    + destruct b as [d|]; [|intros []]. destruct Hb as (n & a & _ & -> & _).
      apply stop_free_app; [intros [Q|[]]; discriminate|apply stop_free_spell].
  - unfold text, note. intro Q. injection Q as Q _. destruct (N1 "?"%char) as (_ & Q'). exact (Q' Q).
Qed.

Lemma stops_back s : stop_free s ->
  map (fun c => if Ascii.eqb c "."%char then ","%char else c) (map (fun c => if Ascii.eqb c ","%char then "."%char else c) s) = s.
Proof.
  intro H. rewrite map_map. rewrite <- (map_id s) at 2. apply map_ext_in. intros c Hc.
  destruct (Ascii.eqb_spec c ","%char); [subst; reflexivity|]. destruct (Ascii.eqb_spec c "."%char); [subst; destruct (H Hc)|reflexivity].
Qed.

(** The texts that are taken to mean no chord, in any mixture of capitals. *)
Definition means_no_chord (t : utext) : Prop :=
  exists n, In n ["n.c."; "(n.c.)"; "nc"; "(nc)"; "no chord"; "(no chord)"]%string
    /\ Forall2 (fun x a => x = N_of_ascii a \/ (x + 32)%N = N_of_ascii a /\ (65 <= x <= 90)%N) t (S_ n).

Lemma lower_is t s : map u_lower t = map N_of_ascii s ->
  Forall2 (fun x a => x = N_of_ascii a \/ (x + 32)%N = N_of_ascii a /\ (65 <= x <= 90)%N) t s.
Proof.
  revert s. induction t as [|x t IH]; intros [|a s]; cbn; try discriminate; [constructor|]. intro H. injection H as H1 H2.
  constructor; [|apply IH; exact H2]. unfold u_lower in H1.
  destruct (N.leb_spec 65 x), (N.leb_spec x 90); cbn in H1; auto.
Qed.
Lemma not_no_chord t : ~ means_no_chord t -> existsb (u_eqb (map u_lower t)) no_chord_texts = false.
Proof.
  intro H. apply not_true_is_false. intro E. apply existsb_exists in E as (n & Hn & E). apply u_eqb_eq in E.
  change no_chord_texts with (map U ["n.c."; "(n.c.)"; "nc"; "(nc)"; "no chord"; "(no chord)"]%string) in Hn.
  apply in_map_iff in Hn as (s & <- & Hs). apply H. exists s. split; [exact Hs|]. apply lower_is. exact E.
Qed.

(** What the text of a chord symbol looks like: the text it was read with; otherwise the
    root, the label of the kind and, if it is another note, the bass. *)
Inductive prints : harmony -> utext -> Prop :=
  | prints_full c k t : prints (Harm (Sym c) k (Some t)) t
  | prints_root c k : k <> [] -> c_bass c = c_root c -> prints (Harm (Sym c) k None) (letter_code (c_root c) :: signs (c_root c) ++ k)
  | prints_bass c k : k <> [] -> c_bass c <> c_root c ->
      prints (Harm (Sym c) k None) (letter_code (c_root c) :: signs (c_root c) ++ k ++ [47%N] ++ letter_code (c_bass c) :: signs (c_bass c))
  | prints_none k f : prints (Harm NoChord k f) k.

Definition roots_ok (s : csym) : Prop := match s with NoChord => True | Sym c => p_step (c_root c) < 7 /\ p_step (c_bass c) < 7 end.

Lemma chord_text_prints figure h t : roots_ok (h_sym h) -> prints h t -> chord_text figure h = Some t.
Proof.
  intros Hr H. destruct H as [c k t|c k Hk E|c k Hk E|k f]; try reflexivity; cbn [chord_text h_sym h_full h_kind roots_ok] in *;
    destruct Hr as (R1 & R2); destruct k as [|x k]; try congruence; cbv zeta; rewrite !name_signs_is by assumption.
  - rewrite E. rewrite (proj2 (u_eqb_eq _ _) eq_refl), app_nil_r. reflexivity.
  - destruct (u_eqb (letter_code (c_bass c) :: signs (c_bass c)) (letter_code (c_root c) :: signs (c_root c))) eqn:Q; [|reflexivity].
    exfalso. apply u_eqb_eq in Q. injection Q as Q1 Q2. apply letter_inj in Q1; [|assumption|assumption]. apply signs_inj in Q2.
    apply E. destruct (c_bass c), (c_root c). cbn in *. congruence.
Qed.

Section Harm.
Context (types : list (str * str)) (set_order : list str -> list str) (unescape : utext -> utext) (figure : csym -> utext)
        (of_figure : utext -> option (csym * nat)) (topPartN : utext).
Notation written := (emit_harmony figure).
Notation read := (harm_of types set_order unescape of_figure topPartN).

Lemma read_written fuel staff ts t ht s :
  staff <> [] -> stop_free ht -> ht <> [] -> ht <> S_ "N" -> makeChordSymbolFromHarte types set_order ht = Some (Some s) ->
  unescape t = t -> u_trimmed t -> ~ means_no_chord t ->
  read fuel (HarmEl false (Some staff) (Some ts) (Some (harte_prefix ++ map (fun c => if Ascii.eqb c ","%char then "."%char else c) ht)) t)
  = Read staff ts (Harm s (kind_label t) (Some t)).
Proof.
  intros Hst Hs Hne HN Hh Hu Ht Hn. unfold harm_of. cbn [e_fb e_staff e_tstamp e_type e_text].
  rewrite Hu, (u_strip_id t Ht), (not_no_chord t Hn). unfold reg_of.
  set (m := map (fun c => if Ascii.eqb c ","%char then "."%char else c) ht).
  replace (starts_with harte_prefix (harte_prefix ++ m)) with true by reflexivity.
  replace (skipn (List.length harte_prefix) (harte_prefix ++ m)) with m by reflexivity.
  unfold m. rewrite (stops_back ht Hs). rewrite (proj2 (str_eqb_neq _ _) HN). cbn [orb by_reg].
  destruct ht as [|x ht]; [congruence|]. rewrite Hh. destruct staff; [congruence|]. reflexivity.
Qed.

(** C159: a chord symbol written to MEI is read back as one with the same root, bass and
    degrees, on the same staff and at the same time, and with the text it was printed
    with; and it is printed with the same text again.  Missing: texts with white space
    around, with entities, or that say there is no chord; kinds that have no Harte text;
    see the counterexamples below. *)
Theorem C159_chord_partial fuel staff ts h c t :
  table_ok types -> (forall l, Permutation (set_order l) l) ->
  h_sym h = Sym c -> In (c_kind c) (map fst usual) -> p_step (c_root c) < 7 -> p_step (c_bass c) < 7 ->
  mods_ok types (c_kind c) (c_mods c) -> bass_ok (c_root c) (c_bass c) -> staff <> [] ->
  prints h t -> unescape t = t -> u_trimmed t -> ~ means_no_chord t ->
  exists e h' c', written staff ts h = Some e /\ e_text e = t /\ read fuel e = Read staff ts h'
    /\ h_sym h' = Sym c' /\ c_root c' = c_root c /\ c_bass c' = c_bass c /\ (forall d, has types c' d <-> has types c d)
    /\ h_full h' = Some t /\ prints h' t /\ chord_text figure h' = Some t.
Proof.
  intros T Hp Hc Hk R1 R2 Hm Hb Hst Hpr Hu Ht Hn.
  destruct (C117_harte_written_partial types [] c T Hk R1 Hm Hb) as (ht & E1 & D).
  destruct (C118_harte_read_partial types set_order ht _ _ _ T Hp D) as (c' & E2 & Q1 & Q2 & Q3).
  destruct (denotes_stop_free _ _ _ _ D) as (S1 & S2 & S3).
  assert (Et : chord_text figure h = Some t) by (apply chord_text_prints; [rewrite Hc; split; assumption|exact Hpr]).
  eexists. exists (Harm (Sym c') (kind_label t) (Some t)), c'. split.
  { unfold emit_harmony. rewrite Hc, E1, Et. destruct ht; [congruence|]. reflexivity. }
  split; [reflexivity|]. split; [apply read_written; assumption|]. cbn. repeat (split; [auto; fail|]). split; [constructor|reflexivity].
Qed.

(** C159: the label of the kind comes back too, if it has no slash and does not begin with
    an accidental. *)
Theorem C159_label_partial fuel staff ts c k t e h' :
  table_ok types -> (forall l, Permutation (set_order l) l) ->
  In (c_kind c) (map fst usual) -> p_step (c_root c) < 7 -> p_step (c_bass c) < 7 ->
  mods_ok types (c_kind c) (c_mods c) -> bass_ok (c_root c) (c_bass c) -> staff <> [] ->
  k <> [] -> ~ In 47%N k -> (forall x k', k = x :: k' -> ~ In x leading) ->
  prints (Harm (Sym c) k None) t -> unescape t = t -> u_trimmed t -> ~ means_no_chord t ->
  written staff ts (Harm (Sym c) k None) = Some e -> read fuel e = Read staff ts h' -> h_kind h' = k.
Proof.
  intros T Hp Hk R1 R2 Hm Hb Hst Hne Hsl Hl Hpr Hu Ht Hn He Hr.
  destruct (C117_harte_written_partial types [] c T Hk R1 Hm Hb) as (ht & E1 & D).
  destruct (C118_harte_read_partial types set_order ht _ _ _ T Hp D) as (c' & E2 & Q1 & Q2 & Q3).
  destruct (denotes_stop_free _ _ _ _ D) as (S1 & S2 & S3).
  assert (Et : chord_text figure (Harm (Sym c) k None) = Some t) by (apply chord_text_prints; [split; assumption|exact Hpr]).
  unfold emit_harmony in He. cbn [h_sym] in He. rewrite E1, Et in He. destruct ht as [|x ht]; [congruence|].
  cbn [option_map] in He. injection He as <-.
  assert (W := eq_trans (eq_sym (read_written fuel staff ts t (x :: ht) (Sym c') Hst S1 S2 S3 E2 Hu Ht Hn)) Hr).
  injection W as <-. cbn [h_kind].
  unfold kind_label. inversion Hpr; subst; cbn [tl].
  - rewrite drop_leading_app; [apply up_to_slash_none; exact Hsl|apply signs_leading|exact Hl].
  - rewrite drop_leading_app; [apply up_to_slash_app; exact Hsl|apply signs_leading|].
    intros y k' E. destruct k as [|z k]; [congruence|]. injection E as -> _. exact (Hl _ _ eq_refl).
Qed.

(** C159: no chord comes back as no chord, with its text. *)
Theorem C159_no_chord fuel staff ts k f : staff <> [] -> k <> [] -> unescape k = k -> u_trimmed k ->
  exists e, written staff ts (Harm NoChord k f) = Some e /\ read fuel e = Read staff ts (Harm NoChord k None).
Proof.
  intros Hst Hk Hu Ht. eexists. split; [reflexivity|]. unfold harm_of. cbn [e_fb e_staff e_tstamp e_type e_text h_kind chord_text h_sym option_map].
  rewrite Hu, (u_strip_id k Ht).
  match goal with |- context [reg_of ?x] => replace (reg_of x) with (Harte (S_ "N")) by (vm_compute; reflexivity) end.
  cbn [str_eqb]. change (str_eqb (S_ "N") (S_ "N")) with true. cbn [orb].
  destruct staff; [congruence|]. destruct k; [congruence|]. reflexivity.
Qed.

(** C159: an element without a staff belongs to the top part; figured bass and elements
    without time stamp give nothing. *)
Theorem C159_top_part fuel ts ty t st : (st = None \/ st = Some []) ->
  read fuel (HarmEl false st (Some ts) ty t) = read fuel (HarmEl false (Some topPartN) (Some ts) ty t).
Proof. unfold harm_of. cbn [e_fb e_staff e_tstamp e_type e_text]. intros [-> | ->]; destruct topPartN; reflexivity. Qed.
Theorem C159_nothing fuel e : e_fb e = true \/ e_tstamp e = None -> read fuel e = Skipped.
Proof. unfold harm_of. intros [-> | ->]; [reflexivity|]. destruct (e_fb e); reflexivity. Qed.

(** C159: a text in an element of another program that says there is no chord gives a mark
    for no chord, whatever its type. *)
Theorem C159_no_chord_text fuel staff ts ty t : staff <> [] -> means_no_chord t -> unescape t = t -> u_trimmed t ->
  read fuel (HarmEl false (Some staff) (Some ts) ty t) = Read staff ts (Harm NoChord t None).
Proof.
  intros Hst (n & Hn & F) Hu Ht. unfold harm_of. cbn [e_fb e_staff e_tstamp e_type e_text]. rewrite Hu, (u_strip_id t Ht).
  assert (E : existsb (u_eqb (map u_lower t)) no_chord_texts = true).
  { apply existsb_exists. exists (U n). split.
    - change no_chord_texts with (map U ["n.c."; "(n.c.)"; "nc"; "(nc)"; "no chord"; "(no chord)"]%string). apply in_map. exact Hn.
    - apply u_eqb_eq. assert (L : forall a, In a (S_ n) -> ~ (65 <= N_of_ascii a <= 90)%N).
      { intros a Ha. assert (Q : forallb (fun a => negb ((65 <=? N_of_ascii a) && (N_of_ascii a <=? 90)))%N (S_ n) = true).
        { cbn in Hn. repeat (destruct Hn as [<-|Hn]; [reflexivity|]). destruct Hn. }
        rewrite forallb_forall in Q. specialize (Q a Ha). apply negb_true_iff, andb_false_iff in Q as [Q|Q]; apply N.leb_gt in Q; lia. }
      unfold U. clear Hn Hu Ht. induction F as [|x a t1 s1 Hx F IH]; [reflexivity|]. cbn [map]. f_equal; [|apply IH; intros b Hb; apply L; right; exact Hb].
      unfold u_lower. specialize (L a (or_introl eq_refl)). destruct Hx as [->|(Hx & Hr)].
      + destruct (N.leb_spec 65 (N_of_ascii a)), (N.leb_spec (N_of_ascii a) 90); cbn; try reflexivity. lia.
      + destruct (N.leb_spec 65 x), (N.leb_spec x 90); cbn; try lia. }
  rewrite E, orb_true_r. unfold no_chord. destruct staff; [congruence|]. destruct t; [|reflexivity].
  inversion F as [Q|]. cbn in Hn. repeat (destruct Hn as [<-|Hn]; [discriminate|]). destruct Hn.
Qed.

(** C159: white space around the text does not count. *)
Theorem C159_blanks fuel fb staff ts ty a t b : Forall (fun c => u_space c = true) a -> Forall (fun c => u_space c = true) b ->
  t <> [] -> u_trimmed t -> unescape t = t -> unescape (a ++ t ++ b) = a ++ t ++ b ->
  read fuel (HarmEl fb staff ts ty (a ++ t ++ b)) = read fuel (HarmEl fb staff ts ty t).
Proof.
  intros Ha Hb Hne Ht Hu1 Hu2. unfold harm_of. cbn [e_fb e_staff e_tstamp e_type e_text]. rewrite Hu1, Hu2.
  assert (E : u_strip (a ++ t ++ b) = u_strip t); [|rewrite E; reflexivity].
  assert (L : forall w x, Forall (fun c => u_space c = true) w -> u_lstrip (w ++ x) = u_lstrip x).
  { clear. intros w x H. induction H as [|c w Hc _ IH]; [reflexivity|]. cbn. rewrite Hc. exact IH. }
  rewrite (u_strip_id t Ht). unfold u_strip. rewrite (L a) by exact Ha. destruct Ht as (T1 & T2).
  rewrite (u_lstrip_id (t ++ b)).
  2: { intros c t' E. destruct t as [|d t]; [congruence|]. injection E as -> _. exact (T1 _ _ eq_refl). }
  rewrite rev_app_distr, L by (apply Forall_rev; exact Hb). rewrite u_lstrip_id; [apply rev_involutive|].
  intros c t' E. apply (T2 c (rev t')). rewrite <- (rev_involutive t), E. reflexivity.
Qed.
End Harm.
Print Assumptions C159_no_chord_text.
Print Assumptions C159_blanks.
Print Assumptions C159_chord_partial.
Print Assumptions C159_label_partial.
Print Assumptions C159_no_chord.
Print Assumptions C159_top_part.
Print Assumptions C159_nothing.

(** ** Cases *)

Definition nothing (f : utext) : option (csym * nat) := None.
(** E flat minor seventh without fifth, with an added sharp eleventh, over B flat. *)
Definition label : utext := U "m7" ++ [smufl_sharp] ++ U "11no5".
Definition eb_text : utext := 69%N :: [sign_flat] ++ label ++ [47%N] ++ [66%N; sign_flat].
Lemma eb_prints : prints (Harm (Sym eb_minor) label None) eb_text.
Proof. exact (prints_bass eb_minor label ltac:(discriminate) ltac:(discriminate)). Qed.
Lemma trimmed_by a b m : u_space a = false -> u_space b = false -> u_trimmed (a :: m ++ [b]).
Proof.
  intros A B. split; intros c t' E; [injection E as <- _; exact A|].
  rewrite app_comm_cons in E. apply app_inj_tail in E as (_ & <-). exact B.
Qed.
Lemma eb_trimmed : u_trimmed eb_text.
Proof. apply (trimmed_by 69%N sign_flat ([sign_flat] ++ label ++ [47%N; 66%N])); reflexivity. Qed.
Lemma eb_chord : ~ means_no_chord eb_text.
Proof.
  intros (n & Hn & F). assert (L : List.length eb_text = List.length (S_ n)) by (clear Hn; induction F; cbn; congruence).
  cbn in Hn. repeat (destruct Hn as [<-|Hn]; [vm_compute in L; discriminate|]). destruct Hn.
Qed.
Example C159_chord_nonvacuous : exists e h' c',
  emit_harmony (fun _ => []) (U "1") (U "2.5") (Harm (Sym eb_minor) label None) = Some e
  /\ e_type e = Some (S_ "harte-no-commas:Eb:min7(*5.#11)/5") /\ e_text e = eb_text
  /\ harm_of table (fun l => l) (fun t => t) nothing (U "3") 0 e = Read (U "1") (U "2.5") h'
  /\ h_sym h' = Sym c' /\ c_root c' = PName 2 (-1) /\ c_bass c' = PName 6 (-1) /\ (forall d, has table c' d <-> has table eb_minor d)
  /\ h_full h' = Some eb_text /\ h_kind h' = label.
Proof.
  destruct (cases_ok eb_minor (or_introl eq_refl)) as (A1 & A2 & A3 & A4).
  destruct (C159_chord_partial table (fun l => l) (fun t => t) (fun _ => []) nothing (U "3") 0 (U "1") (U "2.5") (Harm (Sym eb_minor) label None) eb_minor eb_text table_is_ok
    (fun l => Permutation_refl l) eq_refl A1 A2 ltac:(cbn; lia) A3 A4 ltac:(discriminate) eb_prints eq_refl eb_trimmed eb_chord)
    as (e & h' & c' & E1 & E2 & E3 & E4 & E5 & E6 & E7 & E8 & _).
  exists e, h', c'. split; [exact E1|]. split; [vm_compute in E1; injection E1 as <-; reflexivity|].
  split; [exact E2|]. split; [exact E3|]. split; [exact E4|]. split; [exact E5|]. split; [exact E6|]. split; [exact E7|]. split; [exact E8|].
  apply (C159_label_partial table (fun l => l) (fun t => t) (fun _ => []) nothing (U "3") 0 (U "1") (U "2.5") eb_minor label eb_text e h' table_is_ok
    (fun l => Permutation_refl l) A1 A2 ltac:(cbn; lia) A3 A4 ltac:(discriminate)); try assumption; try discriminate.
  - intro Q. apply u_in_In in Q. vm_compute in Q. discriminate.
  - intros x k' E. injection E as <- _. intro Q. apply u_in_In in Q. vm_compute in Q. discriminate.
  - exact eb_prints.
  - reflexivity.
  - exact eb_trimmed.
  - exact eb_chord.
Qed.
Example C159_no_chord_nonvacuous : exists e,
  emit_harmony (fun _ => []) (U "1") (U "2") (Harm NoChord (U "tacet") None) = Some e
  /\ harm_of table (fun l => l) (fun t => t) nothing (U "3") 0 e = Read (U "1") (U "2") (Harm NoChord (U "tacet") None).
Proof. apply C159_no_chord; try discriminate; [reflexivity|]. apply (trimmed_by 116%N 116%N (U "ace")); reflexivity. Qed.

Example C159_no_chord_text_nonvacuous :
  harm_of table (fun l => l) (fun t => t) nothing (U "3") 0 (HarmEl false (Some (U "1")) (Some (U "2")) (Some (S_ "harte-no-commas:C:maj")) (U "No Chord"))
  = Read (U "1") (U "2") (Harm NoChord (U "No Chord") None).
Proof.
  apply C159_no_chord_text; [discriminate| |reflexivity|apply (trimmed_by 78%N 100%N (U "o Chor")); reflexivity].
  exists "no chord"%string. split; [cbn; tauto|]. vm_compute. repeat (constructor; [first [left; reflexivity|right; split; [reflexivity|split; discriminate]]|]). constructor.
Qed.
Example C159_blanks_nonvacuous :
  harm_of table (fun l => l) (fun t => t) nothing (U "3") 0 (HarmEl false None (Some (U "2")) None (U "  " ++ U "N.C." ++ [10%N]))
  = Read (U "3") (U "2") (Harm NoChord (U "N.C.") None).
Proof.
  rewrite C159_blanks; [reflexivity|repeat constructor|repeat constructor|discriminate|apply (trimmed_by 78%N 46%N (U ".C")); reflexivity|reflexivity|reflexivity].
Qed.

(** ** Where it goes wrong *)

(** A six-nine chord: the label of its kind is cut at the slash. *)
Theorem C159_label_refuted_slash : exists c e h',
  emit_harmony (fun _ => []) (U "1") (U "1") (Harm (Sym c) (U "6/9") None) = Some e
  /\ harm_of table (fun l => l) (fun t => t) nothing (U "1") 1 e = Read (U "1") (U "1") h' /\ h_kind h' = U "6".
Proof.
  exists (Chord (PName 0 0) (PName 0 0) (S_ "major-sixth") [Mod Add 9 (Some 0%Z)]).
  eexists. eexists. split; [vm_compute; reflexivity|]. split; [vm_compute; reflexivity|reflexivity].
Qed.
Print Assumptions C159_label_refuted_slash.
(** A label that begins with an accidental loses it. *)
Theorem C159_label_refuted_flat : exists c e h',
  emit_harmony (fun _ => []) (U "1") (U "1") (Harm (Sym c) (U "b5") None) = Some e
  /\ harm_of table (fun l => l) (fun t => t) nothing (U "1") 1 e = Read (U "1") (U "1") h' /\ h_kind h' = U "5".
Proof.
  exists (Chord (PName 0 0) (PName 0 0) (S_ "major") [Mod Alter 5 (Some (-1)%Z)]).
  eexists. eexists. split; [vm_compute; reflexivity|]. split; [vm_compute; reflexivity|reflexivity].
Qed.
Print Assumptions C159_label_refuted_flat.
(** A chord whose text says there is none is lost, although its type says what it is. *)
Theorem C159_chord_refuted_text : exists c e,
  emit_harmony (fun _ => []) (U "1") (U "1") (Harm (Sym c) (U "7") (Some (U "nc"))) = Some e
  /\ e_type e = Some (S_ "harte-no-commas:C:7")
  /\ harm_of table (fun l => l) (fun t => t) nothing (U "1") 1 e = Read (U "1") (U "1") (Harm NoChord (U "nc") None).
Proof.
  exists (Chord (PName 0 0) (PName 0 0) (S_ "dominant-seventh") []).
  eexists. split; [vm_compute; reflexivity|]. split; vm_compute; reflexivity.
Qed.
Print Assumptions C159_chord_refuted_text.
(** A chord of a kind without Harte text is lost if music21 does not understand its text. *)
Theorem C159_chord_refuted_kind : exists c e,
  emit_harmony (fun _ => []) (U "1") (U "1") (Harm (Sym c) (U "mystic") None) = Some e
  /\ e_type e = None /\ harm_of table (fun l => l) (fun t => t) nothing (U "1") 1 e = Skipped.
Proof.
  exists (Chord (PName 0 0) (PName 0 0) (S_ "other") []).
  eexists. split; [vm_compute; reflexivity|]. split; vm_compute; reflexivity.
Qed.
Print Assumptions C159_chord_refuted_kind.

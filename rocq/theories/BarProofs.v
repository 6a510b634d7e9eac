(** Proofs about barlines and key signatures. *)
From Coq Require Import Lia.
From Verif Require Import PyStr PyStrProofs BarModel.

(** * Enumerations *)
Definition all_types := [BRegular; BDotted; BDashed; BHeavy; BDouble; BFinal; BHeavyLight;
                         BHeavyHeavy; BTick; BShort; BNone].
Definition all_bars : list (option barline) :=
  None :: map (fun t => Some (Bar t)) all_types ++ map (fun t => Some (RepeatStart t)) all_types
  ++ map (fun t => Some (RepeatEnd t)) all_types.
Definition all_fermatas := [NoFermata; Fermata; FermataAbove; FermataBelow].

Lemma all_types_complete t : In t all_types.
Proof. destruct t; cbn; tauto. Qed.
Lemma all_bars_complete b : In b all_bars.
Proof. destruct b as [[t|t|t]|]; [destruct t..|]; cbn; tauto. Qed.
Lemma all_fermatas_complete f : In f all_fermatas.
Proof. destruct f; cbn; tauto. Qed.

Lemma check_bars (P : option barline -> option barline -> fermata -> bool) :
  forallb (fun l => forallb (fun r => forallb (P l r) all_fermatas) all_bars) all_bars = true ->
  forall l r f, P l r f = true.
Proof.
  intros H l r f. rewrite forallb_forall in H.
  specialize (H l (all_bars_complete l)). rewrite forallb_forall in H.
  specialize (H r (all_bars_complete r)). rewrite forallb_forall in H.
  exact (H f (all_fermatas_complete f)).
Qed.

(** * Measure numbers do not disturb the reading of a barline token *)
Definition alnum (c : ascii) : bool := is_digit c || is_lower c || is_upper c.

Lemma contains_skip p0 p c s : Ascii.eqb p0 c = false -> contains (p0 :: p) (c :: s) = contains (p0 :: p) s.
Proof. intros H. cbn. rewrite H. reflexivity. Qed.

Lemma contains_skip_all p0 p num suf :
  forallb alnum num = true -> alnum p0 = false ->
  contains (p0 :: p) (num ++ suf) = contains (p0 :: p) suf.
Proof.
  intros H Hp. induction num as [|c num IH]; [reflexivity|].
  cbn in H. apply andb_true_iff in H as [H1 H2]. cbn [app].
  rewrite contains_skip; [apply IH, H2|].
  destruct (Ascii.eqb p0 c) eqn:E; [|reflexivity].
  apply Ascii.eqb_eq in E. subst c. congruence.
Qed.

Lemma contains_num p0 p num suf :
  forallb alnum num = true -> alnum p0 = false -> Ascii.eqb p0 "="%char = false ->
  contains (p0 :: p) (S_ "=" ++ num ++ suf) = contains (p0 :: p) (S_ "=" ++ suf).
Proof.
  intros H Hp He. cbn [S_ list_ascii_of_string app].
  rewrite !contains_skip by exact He. apply contains_skip_all; assumption.
Qed.

Lemma char_in_cons x c s : char_in x (c :: s) = Ascii.eqb x c || char_in x s.
Proof. reflexivity. Qed.

Lemma starts_eqs num suf : forallb alnum num = true -> char_in "=" suf = false ->
  starts_with (S_ "==") (S_ "=" ++ num ++ suf) = false.
Proof.
  intros H Hs. cbn [S_ list_ascii_of_string app starts_with].
  rewrite Ascii.eqb_refl. cbn [andb].
  destruct num as [|c num]; cbn [app].
  - destruct suf as [|c suf]; [reflexivity|]. rewrite char_in_cons in Hs.
    apply orb_false_iff in Hs as [Hs _]. rewrite Hs. reflexivity.
  - cbn in H. apply andb_true_iff in H as [H _].
    destruct (Ascii.eqb "=" c) eqn:E; [|reflexivity].
    apply Ascii.eqb_eq in E. subst c. discriminate.
Qed.

Lemma contains_no_char p0 p s : char_in p0 s = false -> contains (p0 :: p) s = false.
Proof.
  induction s as [|c s IH]; [reflexivity|].
  intros H. rewrite char_in_cons in H. apply orb_false_iff in H as [H1 H2].
  rewrite contains_skip by exact H1. apply IH, H2.
Qed.

Lemma alnum_no_eq num : forallb alnum num = true -> char_in "=" num = false.
Proof.
  induction num as [|c num IH]; [reflexivity|]. cbn [forallb]. rewrite char_in_cons. intros H.
  apply andb_true_iff in H as [H1 H2]. apply orb_false_iff. split; [|apply IH, H2].
  destruct (Ascii.eqb "=" c) eqn:E; [|reflexivity].
  apply Ascii.eqb_eq in E. subst c. discriminate.
Qed.

Lemma contains_eqs num suf : forallb alnum num = true -> char_in "=" suf = false ->
  contains (S_ "==") (S_ "=" ++ num ++ suf) = false.
Proof.
  intros H Hs.
  change (contains (S_ "==") (S_ "=" ++ num ++ suf))
    with (starts_with (S_ "==") (S_ "=" ++ num ++ suf) || contains (S_ "==") (num ++ suf)).
  rewrite starts_eqs by assumption. cbn [orb].
  apply contains_no_char. rewrite char_in_app, Hs, (alnum_no_eq num H). reflexivity.
Qed.

Section Number.
  Context (num suf : str) (Hn : forallb alnum num = true) (Hs : char_in "=" suf = false).

  Let tok := S_ "=" ++ num ++ suf.
  Let bare := S_ "=" ++ suf.

  Lemma type_num : m21BarlineTypeFromHumdrumString tok = m21BarlineTypeFromHumdrumString bare.
  Proof.
    unfold m21BarlineTypeFromHumdrumString, m21BarlineTypeFromHumdrumType, tok, bare.
    cbn [first_in].
    rewrite (contains_eqs num suf Hn Hs), (contains_eqs [] suf eq_refl Hs : contains (S_ "==") (S_ "=" ++ suf) = false).
    cbn [S_ list_ascii_of_string].
    repeat match goal with
    | |- context [contains (?p0 :: ?p) ("="%char :: [] ++ num ++ suf)] =>
        rewrite (contains_num p0 p num suf Hn eq_refl eq_refl : contains (p0 :: p) ("="%char :: [] ++ num ++ suf) = _)
    | |- context [contains (?p0 :: ?p) (["="%char] ++ num ++ suf)] =>
        rewrite (contains_num p0 p num suf Hn eq_refl eq_refl : contains (p0 :: p) (["="%char] ++ num ++ suf) = _)
    end.
    reflexivity.
  Qed.

  Lemma read_num : read_bar_token tok = read_bar_token bare.
  Proof.
    unfold read_bar_token.
    replace (starts_with (S_ "==") tok) with false by (symmetry; apply starts_eqs; assumption).
    replace (starts_with (S_ "==") bare) with false
      by (symmetry; apply (starts_eqs [] suf eq_refl Hs)).
    unfold m21BarlineFromHumdrumString, m21BarlineTypeFromHumdrumRepeatString, start_repeat_in, end_repeat_in.
    rewrite type_num.
    unfold tok, bare.
    cbn [S_ list_ascii_of_string].
    repeat match goal with
    | |- context [contains (?p0 :: ?p) (["="%char] ++ num ++ suf)] =>
        rewrite (contains_num p0 p num suf Hn eq_refl eq_refl : contains (p0 :: p) (["="%char] ++ num ++ suf) = _)
    end.
    reflexivity.
  Qed.
End Number.

(** The suffix of a token contains '=' only for a final barline, and then first. *)
Lemma suffix_eq s f suf : bar_suffix s f = Some suf ->
  (s = (Final, NotRepeat) /\ suf = S_ "=" ++ fermata_str f) \/ char_in "=" suf = false.
Proof.
  destruct s as [v m]. destruct v, m, f; cbn; intros H; try discriminate;
    injection H as <-; try (right; reflexivity); left; split; reflexivity.
Qed.

Lemma read_token_num num s f : forallb alnum num = true ->
  option_map read_bar_token (createBarToken num s f) = option_map read_bar_token (createBarToken [] s f).
Proof.
  intros H. unfold createBarToken.
  destruct (bar_suffix s f) as [suf|] eqn:E; [|reflexivity]. cbn [option_map]. f_equal.
  destruct (suffix_eq s f suf E) as [[-> ->]|Hs].
  - destruct num as [|c num]; [reflexivity|]. destruct f; reflexivity.
  - destruct num as [|c num]; [reflexivity|].
    assert (N : forall r, str_eqb suf ("="%char :: r) = false /\ starts_with ("="%char :: r) suf = false).
    { intros r. destruct suf as [|x suf]; [split; reflexivity|]. rewrite char_in_cons in Hs.
      apply orb_false_iff in Hs as [Hx _]. cbn [str_eqb starts_with].
      rewrite Hx. split; [|reflexivity]. destruct (Ascii.eqb x "=") eqn:E2; [|reflexivity].
      apply Ascii.eqb_eq in E2. subst x. discriminate. }
    destruct (N (@nil ascii)) as [N1 _]. destruct (N [";"%char]) as [_ N2].
    change (S_ "=") with ["="%char] at 1. change (S_ "=;") with ["="%char; ";"%char].
    rewrite N1, N2. apply read_num; assumption.
Qed.

Lemma export_import_num num left prev f : forallb alnum num = true ->
  export_import num left prev f = export_import [] left prev f.
Proof.
  intros H. unfold export_import.
  destruct (measure_style left prev) as [s|]; [|reflexivity].
  pose proof (read_token_num num s f H) as R.
  destruct (createBarToken num s f), (createBarToken [] s f); cbn in R; congruence.
Qed.

(** * Key signatures with cancelling naturals anywhere *)
Inductive accid := Sharp | Flat | Natural.
Definition accid_char (a : accid) : ascii :=
  match a with Sharp => "#" | Flat => "-" | Natural => "n" end%char.
Definition item := (ascii * accid)%type.
Definition is_letter (c : ascii) : bool := char_in c (S_ "abcdefg").
Definition item_ok (i : item) : bool := is_letter (fst i).
Definition spell (is : list item) : str := concat (map (fun i => [fst i; accid_char (snd i)]) is).
Definition is_natural (i : item) : bool := match snd i with Natural => true | _ => false end.
Definition is_nat_of (c : ascii) (i : item) : bool := Ascii.eqb c (fst i) && is_natural i.

Lemma letter_not_accid c a : is_letter c = true -> Ascii.eqb c (accid_char a) = false.
Proof.
  intros H. destruct (Ascii.eqb c (accid_char a)) eqn:E; [|reflexivity].
  apply Ascii.eqb_eq in E. subst c. destruct a; discriminate.
Qed.

Lemma replace_items c is : is_letter c = true -> forallb item_ok is = true ->
  forall fuel, length (spell is) < fuel ->
  replace_fuel fuel [c; "n"%char] [] (spell is) = spell (filter (fun i => negb (is_nat_of c i)) is).
Proof.
  intros Hc. induction is as [|[l a] is IH]; intros H fuel F; [destruct fuel; reflexivity|].
  cbn in H. apply andb_true_iff in H as [H1 H2].
  change (spell ((l, a) :: is)) with (l :: accid_char a :: spell is) in *.
  cbn [length] in F. destruct fuel as [|fuel]; [lia|].
  cbn [replace_fuel starts_with filter]. unfold is_nat_of, is_natural. cbn [fst snd].
  destruct (Ascii.eqb c l) eqn:E; cbn [andb].
  - destruct a; cbn [accid_char andb negb Ascii.eqb].
    + destruct fuel as [|fuel]; [lia|]. cbn [replace_fuel starts_with].
      rewrite (letter_not_accid c Sharp Hc : Ascii.eqb c "#" = false). cbn [andb].
      rewrite IH by (assumption || lia). reflexivity.
    + destruct fuel as [|fuel]; [lia|]. cbn [replace_fuel starts_with].
      rewrite (letter_not_accid c Flat Hc : Ascii.eqb c "-" = false). cbn [andb].
      rewrite IH by (assumption || lia). reflexivity.
    + cbn [length skipn app]. rewrite IH by (assumption || lia). reflexivity.
  - destruct fuel as [|fuel]; [lia|]. cbn [replace_fuel starts_with negb].
    rewrite (letter_not_accid c a Hc). cbn [andb].
    rewrite IH by (assumption || lia). reflexivity.
Qed.

Lemma replace_nat c is : is_letter c = true -> forallb item_ok is = true ->
  replace [c; "n"%char] [] (spell is) = spell (filter (fun i => negb (is_nat_of c i)) is).
Proof. intros Hc H. unfold replace. apply replace_items; [assumption..|lia]. Qed.

Lemma forallb_filter {A} (p q : A -> bool) l : forallb p l = true -> forallb p (filter q l) = true.
Proof.
  intros H. rewrite forallb_forall in *. intros x Hx. apply filter_In in Hx. apply H, Hx.
Qed.

Lemma filter_filter {A} (p q : A -> bool) l : filter p (filter q l) = filter (fun x => q x && p x) l.
Proof.
  induction l as [|x l IH]; [reflexivity|]. cbn.
  destruct (q x); cbn; rewrite IH; reflexivity.
Qed.

Lemma filter_ext_ok (p q : item -> bool) l : forallb item_ok l = true ->
  (forall x, item_ok x = true -> p x = q x) -> filter p l = filter q l.
Proof.
  intros H E. induction l as [|x l IH]; [reflexivity|]. cbn in H. apply andb_true_iff in H as [H1 H2].
  cbn. rewrite E, IH by assumption. reflexivity.
Qed.

Lemma no_n_no_naturals is : forallb item_ok is = true -> char_in "n" (spell is) = false ->
  filter (fun i => negb (is_natural i)) is = is.
Proof.
  induction is as [|[l a] is IH]; [reflexivity|]. cbn. intros H N.
  apply andb_true_iff in H as [H1 H2]. apply orb_false_iff in N as [N1 N2].
  apply orb_false_iff in N2 as [N2 N3].
  destruct a; [| |discriminate]; cbn; rewrite IH by assumption; reflexivity.
Qed.

Lemma drop_naturals_spell is : forallb item_ok is = true ->
  drop_naturals (spell is) = spell (filter (fun i => negb (is_natural i)) is).
Proof.
  intros H. unfold drop_naturals. destruct (char_in "n" (spell is)) eqn:N.
  - cbn [S_ list_ascii_of_string].
    repeat (rewrite replace_nat; [|reflexivity|repeat apply forallb_filter; exact H]).
    rewrite !filter_filter. f_equal. apply filter_ext_ok; [exact H|].
    intros [l a] Hl. unfold item_ok in Hl. cbn [fst] in Hl. unfold is_nat_of. cbn [fst].
    destruct a; [unfold is_natural; cbn [snd]; rewrite !andb_false_r; reflexivity..|].
    unfold is_natural. cbn [snd]. rewrite !andb_true_r.
    unfold is_letter in Hl. cbn in Hl. rewrite !orb_true_iff in Hl.
    repeat destruct Hl as [Hl|Hl]; try discriminate;
      apply Ascii.eqb_eq in Hl; subst l; reflexivity.
  - rewrite no_n_no_naturals by assumption. reflexivity.
Qed.

Lemma keySignature_of s : keySignature (S_ "*k[" ++ s ++ S_ "]") = s.
Proof.
  unfold keySignature, isKeySignature.
  replace (last (S_ "*k[" ++ s ++ S_ "]") " "%char) with "]"%char.
  - cbn [S_ list_ascii_of_string app starts_with]. rewrite !Ascii.eqb_refl. cbn [andb skipn].
    apply removelast_last.
  - rewrite app_assoc. symmetry. apply last_last.
Qed.

(** The circle of fifths, from which every ordinary signature is built. *)
Definition sharps_order : str := S_ "fcgdaeb".
Definition flats_order : str := S_ "beadgcf".
Definition signature_items (k : Z) : list item :=
  if (0 <=? k)%Z then map (fun c => (c, Sharp)) (firstn (Z.to_nat k) sharps_order)
  else map (fun c => (c, Flat)) (firstn (Z.to_nat (- k)) flats_order).

Lemma cases_15 (P : Z -> Prop) :
  Forall P [-7; -6; -5; -4; -3; -2; -1; 0; 1; 2; 3; 4; 5; 6; 7]%Z ->
  forall k, (-7 <= k <= 7)%Z -> P k.
Proof.
  intros H k Hk. rewrite Forall_forall in H. apply H.
  assert (E : (k = -7 \/ k = -6 \/ k = -5 \/ k = -4 \/ k = -3 \/ k = -2 \/ k = -1 \/ k = 0 \/
               k = 1 \/ k = 2 \/ k = 3 \/ k = 4 \/ k = 5 \/ k = 6 \/ k = 7)%Z) by lia.
  cbn [In]. intuition.
Qed.

Lemma lookup_signature k : (-7 <= k <= 7)%Z ->
  lookup_key humdrumStandardKeyStrings (spell (signature_items k)) = Some k.
Proof. revert k. apply cases_15. repeat constructor. Qed.

Theorem signature_read k is : (-7 <= k <= 7)%Z -> forallb item_ok is = true ->
  filter (fun i => negb (is_natural i)) is = signature_items k ->
  m21KeySignature (S_ "*k[" ++ spell is ++ S_ "]") = Some (Sharps k).
Proof.
  intros Hk Hi E. unfold m21KeySignature.
  rewrite keySignature_of, drop_naturals_spell, E, lookup_signature by assumption. reflexivity.
Qed.

Lemma written_signature k : (-7 <= k <= 7)%Z ->
  keySigToken k = Some (S_ "*k[" ++ spell (signature_items k) ++ S_ "]").
Proof. revert k. apply cases_15. repeat constructor. Qed.

Lemma signature_items_ok k : (-7 <= k <= 7)%Z ->
  forallb item_ok (signature_items k) = true /\
  filter (fun i => negb (is_natural i)) (signature_items k) = signature_items k.
Proof. revert k. apply cases_15. repeat constructor. Qed.

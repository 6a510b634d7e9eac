(** Proofs about the pitch text functions. *)
From Verif Require Import PyStr PyStrProofs PitchModel.
From Coq Require Import Lia.
Local Open Scope Z_scope.
Ltac Zify.zify_post_hook ::= Z.div_mod_to_equations.

(** ** Specification vocabulary *)

(** Position of a step in the octave, and its semitone above C. *)
Definition step_index (s : step) : Z :=
  match s with StC => 0 | StD => 1 | StE => 2 | StF => 3 | StG => 4 | StA => 5 | StB => 6 end.
Definition step_semitone (s : step) : Z :=
  match s with StC => 0 | StD => 2 | StE => 4 | StF => 5 | StG => 7 | StA => 9 | StB => 11 end.
Definition all_steps : list step := [StC; StD; StE; StF; StG; StA; StB].

(** music21's name of a pitch: step letter, then '#'s or '-'s. *)
Definition pitch_name (s : step) (alter : Z) : str := step_letter s :: accid_text alter.

(** Characters that say nothing about pitch in a **kern note. *)
Definition inert_char (c : ascii) : bool :=
  negb (char_in c (S_ "abcdefgABCDEFGr #-")).
Definition inert (s : str) : bool := forallb inert_char s.

(** ** Characters *)

(** Checking a boolean statement about characters by enumerating them. *)
Lemma all_ascii (P : ascii -> bool) :
  forallb P (map ascii_of_nat (seq 0 256)) = true -> forall c, P c = true.
Proof.
  intros H c. rewrite forallb_forall in H. apply H.
  rewrite <- (ascii_nat_embedding c). apply in_map, in_seq.
  pose proof (nat_ascii_bounded c). lia.
Qed.

Lemma inert_facts c :
  inert_char c = true ->
  Ascii.eqb c " " = false /\ Ascii.eqb c "r" = false /\ Ascii.eqb c "#" = false /\
  Ascii.eqb c "-" = false /\
  char_in c (S_ "cC") = false /\ char_in c (S_ "dD") = false /\ char_in c (S_ "eE") = false /\
  char_in c (S_ "fF") = false /\ char_in c (S_ "gG") = false /\ char_in c (S_ "aA") = false /\
  char_in c (S_ "bB") = false /\
  char_in c (S_ "ABCDEFG") = false /\ char_in c (S_ "abcdefg") = false.
Proof.
  intro H.
  pose proof (all_ascii (fun c => implb (inert_char c) (negb (
     Ascii.eqb c " " || Ascii.eqb c "r" || Ascii.eqb c "#" || Ascii.eqb c "-" ||
     char_in c (S_ "cC") || char_in c (S_ "dD") || char_in c (S_ "eE") || char_in c (S_ "fF") ||
     char_in c (S_ "gG") || char_in c (S_ "aA") || char_in c (S_ "bB") ||
     char_in c (S_ "ABCDEFG") || char_in c (S_ "abcdefg"))))) as A.
  specialize (A ltac:(vm_compute; reflexivity) c). cbv beta in A.
  rewrite H in A. cbn [implb] in A. apply negb_true_iff in A.
  repeat (apply orb_false_iff in A; destruct A as [A ?]). repeat split; assumption.
Qed.

(** ** Scanning through uninformative text *)

Lemma diatonic_inert pre rest :
  inert pre = true -> kernToDiatonicPC (pre ++ rest) = kernToDiatonicPC rest.
Proof.
  induction pre as [|c pre IH]; [reflexivity|]. unfold inert. cbn [forallb].
  intro H. apply andb_true_iff in H as [H1 H2].
  apply inert_facts in H1. destruct H1 as (E1&E2&E3&E4&E5&E6&E7&E8&E9&E10&E11&_).
  cbn [app kernToDiatonicPC]. rewrite E1, E2, E5, E6, E7, E8, E9, E10, E11. apply IH, H2.
Qed.

Lemma accid_from_inert n pre rest :
  inert pre = true ->
  kernToAccidentalCount_from n (pre ++ rest) = kernToAccidentalCount_from n rest.
Proof.
  induction pre as [|c pre IH]; [reflexivity|]. unfold inert. cbn [forallb].
  intro H. apply andb_true_iff in H as [H1 H2].
  apply inert_facts in H1. destruct H1 as (E1&E2&E3&E4&_).
  cbn [app kernToAccidentalCount_from]. rewrite E1, E3, E4. apply IH, H2.
Qed.

Lemma accid_all_inert n pre rest :
  inert pre = true -> accid_count_all n (pre ++ rest) = accid_count_all n rest.
Proof.
  induction pre as [|c pre IH]; [reflexivity|]. unfold inert. cbn [forallb].
  intro H. apply andb_true_iff in H as [H1 H2].
  apply inert_facts in H1. destruct H1 as (E1&E2&E3&E4&_).
  cbn [app accid_count_all]. rewrite E3, E4. apply IH, H2.
Qed.

Lemma octave_inert u l pre rest :
  inert pre = true -> octave_counts u l (pre ++ rest) = octave_counts u l rest.
Proof.
  induction pre as [|c pre IH]; [reflexivity|]. unfold inert. cbn [forallb].
  intro H. apply andb_true_iff in H as [H1 H2].
  apply inert_facts in H1. destruct H1 as (E1&E2&E3&E4&_&_&_&_&_&_&_&E12&E13).
  cbn [app octave_counts]. rewrite E1, E2, E12, E13. apply IH, H2.
Qed.

(** ** Letters and accidental signs *)

Definition lower_letter (s : step) : ascii := to_lower (step_letter s).
Definition upper_letter (s : step) : ascii := to_upper (step_letter s).

Lemma diatonic_letter_head s (low : bool) rest :
  kernToDiatonicPC ((if low then lower_letter s else upper_letter s) :: rest) = step_index s.
Proof. destruct s, low; reflexivity. Qed.

Lemma accid_from_letters s (low : bool) n k rest :
  kernToAccidentalCount_from n (rep (if low then lower_letter s else upper_letter s) k ++ rest)
  = kernToAccidentalCount_from n rest.
Proof. induction k as [|k IH]; [reflexivity|]. rewrite <- IH. destruct s, low; reflexivity. Qed.

Lemma accid_all_letters s (low : bool) n k rest :
  accid_count_all n (rep (if low then lower_letter s else upper_letter s) k ++ rest)
  = accid_count_all n rest.
Proof. induction k as [|k IH]; [reflexivity|]. rewrite <- IH. destruct s, low; reflexivity. Qed.

Lemma octave_letters s (low : bool) u l k rest :
  octave_counts u l (rep (if low then lower_letter s else upper_letter s) k ++ rest)
  = octave_counts (if low then u else u + Z.of_nat k) (if low then l + Z.of_nat k else l) rest.
Proof.
  revert u l. induction k as [|k IH]; intros u l.
  - cbn [rep repeat app Z.of_nat]. destruct low; f_equal; lia.
  - transitivity (octave_counts (if low then u else u + 1) (if low then l + 1 else l)
                    (rep (if low then lower_letter s else upper_letter s) k ++ rest)).
    + destruct s, low; reflexivity.
    + rewrite IH. destruct low; f_equal; lia.
Qed.

Lemma accid_from_text n k rest :
  kernToAccidentalCount_from n (accid_text k ++ rest) = kernToAccidentalCount_from (n + k) rest.
Proof.
  unfold accid_text.
  assert (P : forall j m, kernToAccidentalCount_from m (rep "#" j ++ rest)
                          = kernToAccidentalCount_from (m + Z.of_nat j) rest).
  { induction j as [|j IH]; intro m; cbn [rep repeat app].
    - f_equal; lia.
    - cbn [kernToAccidentalCount_from Ascii.eqb Bool.eqb]. rewrite IH. f_equal; lia. }
  assert (M : forall j m, kernToAccidentalCount_from m (rep "-" j ++ rest)
                          = kernToAccidentalCount_from (m - Z.of_nat j) rest).
  { induction j as [|j IH]; intro m; cbn [rep repeat app].
    - f_equal; lia.
    - cbn [kernToAccidentalCount_from Ascii.eqb Bool.eqb]. rewrite IH. f_equal; lia. }
  destruct (Z.ltb_spec 0 k); [rewrite P; f_equal; lia|].
  destruct (Z.ltb_spec k 0); [rewrite M; f_equal; lia|].
  cbn [app]. f_equal; lia.
Qed.

Lemma accid_all_text n k rest :
  accid_count_all n (accid_text k ++ rest) = accid_count_all (n + k) rest.
Proof.
  unfold accid_text.
  assert (P : forall j m, accid_count_all m (rep "#" j ++ rest)
                          = accid_count_all (m + Z.of_nat j) rest).
  { induction j as [|j IH]; intro m; cbn [rep repeat app].
    - f_equal; lia.
    - cbn [accid_count_all Ascii.eqb Bool.eqb]. rewrite IH. f_equal; lia. }
  assert (M : forall j m, accid_count_all m (rep "-" j ++ rest)
                          = accid_count_all (m - Z.of_nat j) rest).
  { induction j as [|j IH]; intro m; cbn [rep repeat app].
    - f_equal; lia.
    - cbn [accid_count_all Ascii.eqb Bool.eqb]. rewrite IH. f_equal; lia. }
  destruct (Z.ltb_spec 0 k); [rewrite P; f_equal; lia|].
  destruct (Z.ltb_spec k 0); [rewrite M; f_equal; lia|].
  cbn [app]. f_equal; lia.
Qed.

Lemma octave_accid u l k rest :
  octave_counts u l (accid_text k ++ rest) = octave_counts u l rest.
Proof.
  unfold accid_text.
  assert (P : forall c j, c = "#"%char \/ c = "-"%char ->
      octave_counts u l (rep c j ++ rest) = octave_counts u l rest).
  { intros c j Hc. induction j as [|j IH]; [reflexivity|].
    rewrite <- IH. destruct Hc; subst c; reflexivity. }
  destruct (0 <? k); [apply P; left; reflexivity|].
  destruct (k <? 0); [apply P; right; reflexivity|]. reflexivity.
Qed.

(** ** A written pitch inside a token *)

(** The letters the writer repeats, and how often. *)
Lemma kernPitch_letters octave s :
  exists low k,
    kernPitchFromM21OctaveAndStep octave s
    = rep (if low : bool then lower_letter s else upper_letter s) (S k)
    /\ (if low then octave = 4 + Z.of_nat k else octave = 3 - Z.of_nat k).
Proof.
  unfold kernPitchFromM21OctaveAndStep. destruct (Z.ltb_spec 3 octave).
  - exists true, (Z.to_nat (octave - 4)). split; [|lia].
    unfold lower_letter. f_equal. lia.
  - exists false, (Z.to_nat (3 - octave)). split; [|lia].
    unfold upper_letter. f_equal. lia.
Qed.

(** A pitch with [alter] written between uninformative texts. *)
Definition note_text (pre : str) (s : step) (octave alter : Z) (suf : str) : str :=
  pre ++ kernPitchFromM21OctaveAndStep octave s ++ accid_text alter ++ suf.

Lemma note_diatonic pre s octave alter suf :
  inert pre = true -> kernToDiatonicPC (note_text pre s octave alter suf) = step_index s.
Proof.
  intro H. unfold note_text. rewrite diatonic_inert by exact H.
  destruct (kernPitch_letters octave s) as (low & k & -> & _).
  cbn [rep repeat app]. apply diatonic_letter_head.
Qed.

Lemma inert_app_nil s : inert s = true -> forall n, kernToAccidentalCount_from n s = n.
Proof.
  intros H n. rewrite <- (app_nil_r s), accid_from_inert by exact H. reflexivity.
Qed.

Lemma note_accidental pre s octave alter suf :
  inert pre = true -> inert suf = true ->
  kernToAccidentalCount (note_text pre s octave alter suf) = alter.
Proof.
  intros H H'. unfold note_text, kernToAccidentalCount. rewrite accid_from_inert by exact H.
  destruct (kernPitch_letters octave s) as (low & k & -> & _).
  rewrite accid_from_letters, accid_from_text, inert_app_nil by exact H'. lia.
Qed.

Lemma note_accid_all pre s octave alter suf :
  inert pre = true -> inert suf = true ->
  accid_count_all 0 (note_text pre s octave alter suf) = alter.
Proof.
  intros H H'. unfold note_text. rewrite accid_all_inert by exact H.
  destruct (kernPitch_letters octave s) as (low & k & -> & _).
  rewrite accid_all_letters, accid_all_text.
  rewrite <- (app_nil_r suf), accid_all_inert by exact H'. cbn [accid_count_all]. lia.
Qed.

Lemma step_index_range s : 0 <= step_index s <= 6.
Proof. destruct s; cbn; lia. Qed.

Lemma not_dot text : 0 <= kernToDiatonicPC text -> str_eqb text (S_ ".") = false.
Proof.
  intro H. apply str_eqb_neq. intros ->. vm_compute in H. apply H. reflexivity.
Qed.

Lemma note_octave pre s octave alter suf :
  inert pre = true -> inert suf = true ->
  kernToOctaveNumber (note_text pre s octave alter suf) = octave.
Proof.
  intros H H'. unfold kernToOctaveNumber.
  rewrite not_dot by (rewrite note_diatonic by exact H; apply step_index_range).
  unfold note_text. rewrite octave_inert by exact H.
  destruct (kernPitch_letters octave s) as (low & k & -> & Hk).
  rewrite octave_letters, octave_accid.
  rewrite <- (app_nil_r suf), octave_inert by exact H'. cbn [octave_counts].
  destruct low; cbn [andb]; rewrite Hk.
  - destruct (Z.ltb_spec 0 (0 + Z.of_nat (S k))); [|lia]. cbn [Z.ltb Z.compare andb]. lia.
  - destruct (Z.ltb_spec 0 (0 + Z.of_nat (S k))); [|lia]. cbn [Z.ltb Z.compare andb]. lia.
Qed.

(** ** C05 *)

Lemma diatonic_name s : diatonicToM21PitchName (step_index s) = Some [step_letter s].
Proof. destruct s; reflexivity. Qed.

Lemma note_import pre s octave alter suf :
  inert pre = true -> inert suf = true -> 0 <= octave ->
  import_pitch (note_text pre s octave alter suf) = Some (pitch_name s alter, octave).
Proof.
  intros H H' Ho. unfold import_pitch, m21PitchName. cbv zeta.
  rewrite note_octave, note_diatonic, note_accid_all by assumption.
  pose proof (step_index_range s).
  destruct (Z.ltb_spec octave 0); [lia|]. destruct (Z.ltb_spec (step_index s) 0); [lia|].
  rewrite diatonic_name. reflexivity.
Qed.

(** The suffixes the writer's display choice can add. *)
Definition display_inert (d : display) : bool :=
  match d with Editorial suf => inert suf | _ => true end.

Lemma kernPitch_note_text pre s octave alter disp suf :
  display_inert disp = true -> inert suf = true -> (disp = NoAccidental -> alter = 0) ->
  exists suf', pre ++ kernPitchFromM21Pitch s octave alter disp ++ suf
               = note_text pre s octave alter suf' /\ inert suf' = true.
Proof.
  intros Hd Hs Ha. unfold kernPitchFromM21Pitch, note_text. destruct disp as [| | |e].
  - exists suf. rewrite (Ha eq_refl), !app_nil_r. split; [reflexivity|exact Hs].
  - exists suf. rewrite <- !app_assoc. split; [reflexivity|exact Hs].
  - exists ((if alter =? 0 then S_ "n" else S_ "X") ++ suf). rewrite <- !app_assoc.
    split; [reflexivity|]. destruct (alter =? 0); exact Hs.
  - exists ((if alter =? 0 then S_ "n" ++ e else e) ++ suf). rewrite <- !app_assoc.
    split; [reflexivity|]. cbn [display_inert] in Hd. unfold inert in *.
    destruct (alter =? 0); rewrite ?forallb_app, Hd, Hs; reflexivity.
Qed.

Theorem pitch_roundtrip pre s octave alter disp suf :
  inert pre = true -> inert suf = true -> display_inert disp = true ->
  (disp = NoAccidental -> alter = 0) -> 0 <= octave ->
  import_pitch (pre ++ kernPitchFromM21Pitch s octave alter disp ++ suf)
  = Some (pitch_name s alter, octave).
Proof.
  intros Hp Hs Hd Ha Ho.
  destruct (kernPitch_note_text pre s octave alter disp suf Hd Hs Ha) as (suf' & -> & Hs').
  apply note_import; assumption.
Qed.

(** ** C06, C07 *)

Definition base40_pc (s : step) : Z :=
  match s with StC => 2 | StD => 8 | StE => 14 | StF => 19 | StG => 25 | StA => 31 | StB => 37 end.

Lemma note_base40 pre s octave alter suf :
  inert pre = true -> inert suf = true -> 0 <= base40_pc s + alter ->
  kernToBase40 (note_text pre s octave alter suf) = base40_pc s + alter + 40 * octave.
Proof.
  intros H H' Hr. unfold kernToBase40, kernToBase40PC. cbv zeta.
  rewrite note_diatonic, note_accidental, note_octave by assumption.
  destruct s; cbn [step_index base40_pc Z.ltb Z.eqb Z.compare Pos.eqb] in *;
    match goal with |- context [?x <? 0] => destruct (Z.ltb_spec x 0) end; lia.
Qed.

Theorem base40_injective s1 o1 a1 s2 o2 a2 pre1 suf1 pre2 suf2 :
  inert pre1 = true -> inert suf1 = true -> inert pre2 = true -> inert suf2 = true ->
  -2 <= a1 <= 2 -> -2 <= a2 <= 2 ->
  kernToBase40 (note_text pre1 s1 o1 a1 suf1) = kernToBase40 (note_text pre2 s2 o2 a2 suf2) ->
  s1 = s2 /\ o1 = o2 /\ a1 = a2.
Proof.
  intros H1 H2 H3 H4 Ha1 Ha2 E.
  rewrite !note_base40 in E by (try assumption; destruct s1, s2; cbn [base40_pc]; lia).
  destruct s1, s2; cbn [base40_pc] in E; first [exfalso; lia | repeat split; lia].
Qed.

Lemma step_of_index d : 0 <= d <= 6 ->
  exists s, step_index s = d.
Proof.
  intro H. assert (d = 0 \/ d = 1 \/ d = 2 \/ d = 3 \/ d = 4 \/ d = 5 \/ d = 6) as D by lia.
  destruct D as [->|[->|[->|[->|[->|[->| ->]]]]]];
    [exists StC|exists StD|exists StE|exists StF|exists StG|exists StA|exists StB]; reflexivity.
Qed.

Lemma base40_decompose s a o :
  -2 <= a <= 2 -> 0 <= o ->
  let b := base40_pc s + a + 40 * o in
  b / 40 = o /\ base40ToAccidental b = a /\ base40ToDiatonic b mod 7 = step_index s.
Proof.
  intros Ha Ho b.
  assert (Hpc : 0 <= base40_pc s + a < 40) by (destruct s; cbn [base40_pc]; lia).
  assert (D : b / 40 = o) by (unfold b; lia).
  assert (M : b mod 40 = base40_pc s + a) by (unfold b; lia).
  assert (B0 : (b <? 0) = false) by (unfold b; lia).
  split; [exact D|].
  unfold base40ToAccidental, base40ToDiatonic. rewrite B0, M, D. cbv zeta.
  assert (a = -2 \/ a = -1 \/ a = 0 \/ a = 1 \/ a = 2) as A by lia.
  split.
  - destruct A as [->|[->|[->|[->| ->]]]]; destruct s; reflexivity.
  - destruct A as [->|[->|[->|[->| ->]]]]; destruct s;
      match goal with |- context [base40_pc ?x + ?y] =>
        let v := eval vm_compute in (base40_pc x + y) in change (base40_pc x + y) with v end;
      cbn [z_in existsb Z.eqb Pos.eqb orb step_index]; clear; lia.
Qed.

Theorem kern_base40_kern s o a :
  -2 <= a <= 2 -> 0 <= o <= 16 ->
  base40ToKern (kernToBase40 (note_text [] s o a [])) = Some (note_text [] s o a []).
Proof.
  intros Ha Ho. rewrite note_base40 by (try reflexivity; destruct s; cbn [base40_pc]; lia).
  destruct (base40_decompose s a o Ha (proj1 Ho)) as (D & A & I). cbv zeta in *.
  unfold base40ToKern. rewrite D, A, I. cbv zeta.
  unfold note_text. rewrite app_nil_r. cbn [app].
  unfold kernPitchFromM21OctaveAndStep.
  destruct (Z.ltb_spec 3 o); destruct (Z.ltb_spec o 4); try lia.
  - destruct (Z.ltb_spec 4 o).
    + destruct (Z.ltb_spec 12 (o - 4)); [lia|].
      f_equal. f_equal. replace (Z.to_nat (1 + (o - 4))) with (Z.to_nat (o - 3)) by lia.
      f_equal. destruct s; reflexivity.
    + destruct (Z.ltb_spec o 3); [lia|]. cbn [Z.ltb Z.compare].
      f_equal. f_equal. replace (Z.to_nat (o - 3)) with 1%nat by lia.
      change (Z.to_nat (1 + 0)) with 1%nat. f_equal. destruct s; reflexivity.
  - destruct (Z.ltb_spec 4 o); [lia|]. destruct (Z.ltb_spec o 3).
    + destruct (Z.ltb_spec 12 (3 - o)); [lia|].
      f_equal. f_equal. replace (Z.to_nat (1 + (3 - o))) with (Z.to_nat (4 - o)) by lia.
      f_equal. destruct s; reflexivity.
    + cbn [Z.ltb Z.compare].
      f_equal. f_equal. replace (Z.to_nat (4 - o)) with 1%nat by lia.
      change (Z.to_nat (1 + 0)) with 1%nat. f_equal. destruct s; reflexivity.
Qed.

Theorem midi_law pre s octave alter suf :
  inert pre = true -> inert suf = true ->
  kernToMidiNoteNumber (note_text pre s octave alter suf)
  = 12 * (octave + 1) + step_semitone s + alter.
Proof.
  intros H H'. unfold kernToMidiNoteNumber, kernToBase12PC. cbv zeta.
  rewrite note_diatonic, note_accidental, note_octave by assumption.
  destruct s; cbn [step_index step_semitone Z.ltb Z.eqb Z.compare Pos.eqb Pos.compare]; lia.
Qed.

(** ** C08 *)

Lemma base7_is_note b :
  0 <= b -> exists s, step_index s = b mod 7 /\ base7ToBase40 b = base40_pc s + 0 + 40 * (b / 7).
Proof.
  intro H. destruct (step_of_index (b mod 7)) as [s Hs]; [lia|].
  exists s. split; [exact Hs|]. unfold base7ToBase40. cbv zeta. rewrite <- Hs.
  destruct s; cbn [step_index base40_pc Z.eqb Pos.eqb]; lia.
Qed.

Theorem base7_roundtrip b :
  0 <= b < 119 ->
  exists k, base7ToKern b = Some k /\ kernToBase7 k = b.
Proof.
  intros H. destruct (base7_is_note b (proj1 H)) as (s & Hs & E).
  exists (note_text [] s (b / 7) 0 []). split.
  - unfold base7ToKern. rewrite E.
    rewrite <- (note_base40 [] s (b / 7) 0 []) by (try reflexivity; destruct s; cbn [base40_pc]; lia).
    apply kern_base40_kern; lia.
  - unfold kernToBase7. cbv zeta.
    rewrite note_diatonic, note_octave by reflexivity.
    pose proof (step_index_range s).
    destruct (Z.ltb_spec (step_index s) 0); lia.
Qed.

Theorem kern_base7_kern s o :
  0 <= o <= 16 ->
  base7ToKern (kernToBase7 (note_text [] s o 0 [])) = Some (note_text [] s o 0 []).
Proof.
  intro Ho. unfold kernToBase7. cbv zeta. rewrite note_diatonic, note_octave by reflexivity.
  pose proof (step_index_range s).
  destruct (Z.ltb_spec (step_index s) 0); [lia|].
  unfold base7ToKern. destruct (base7_is_note (step_index s + 7 * o)) as (s' & Hs & ->); [lia|].
  assert (s' = s) as -> by (destruct s, s'; cbn [step_index] in *; try reflexivity; lia).
  replace ((step_index s + 7 * o) / 7) with o by (clear Hs; lia).
  rewrite <- (note_base40 [] s o 0 []) by (try reflexivity; destruct s; cbn [base40_pc]; lia).
  apply kern_base40_kern; lia.
Qed.

(** ** C09 *)

Lemma match_int_show z rest :
  match rest with [] => True | c :: _ => is_digit c = false end ->
  match_int (show_Z z ++ rest) = Some (z, rest).
Proof.
  intro H. unfold match_int.
  assert (N : forall n, match span is_digit (show_N n ++ rest) with
             | ([], _) => None
             | (ds, r) => Some (1 * Z.of_N (parse_N ds), r) end = Some (Z.of_N n, rest)).
  { intro n. rewrite span_app_all by (try apply show_N_digits; exact H).
    destruct (show_N_cons n) as (c & s & E & _). rewrite E at 1.
    rewrite parse_show_N. f_equal. f_equal. lia. }
  assert (D : forall n (A : Type) (x y w : A), match show_N n ++ rest with
             | "+"%char :: _ => x | "-"%char :: _ => y | _ => w end = w).
  { intros n A x y w. destruct (show_N_cons n) as (c & s & E & Hc). rewrite E. cbn [app].
    destruct c as [[] [] [] [] [] [] [] []]; try reflexivity; discriminate Hc. }
  destruct z as [|p|p]; cbn [show_Z].
  - specialize (D 0%N (Z * str)%type). change (show_N 0) with (S_ "0") in *.
    cbn [S_ list_ascii_of_string app] in *.
    change (S_ "0" ++ rest) with (("0"%char :: rest) : str) in *.
    specialize (N 0%N). change (show_N 0) with (S_ "0") in N.
    cbn [S_ list_ascii_of_string app] in N.
    destruct (span is_digit ("0"%char :: rest)) as [[|d ds] r]; exact N.
  - destruct (show_N_cons (Npos p)) as (c & s & E & Hc).
    specialize (N (Npos p)). rewrite E in *. cbn [app] in *.
    destruct c as [[] [] [] [] [] [] [] []]; try discriminate Hc;
      destruct (span is_digit _) as [[|d ds] r]; exact N.
  - cbn [app]. specialize (N (Npos p)).
    destruct (span is_digit (show_N (N.pos p) ++ rest)) as [[|d ds] r]; [discriminate N|].
    assert (E1 : 1 * Z.of_N (parse_N (d :: ds)) = Z.of_N (N.pos p)) by congruence.
    assert (E2 : r = rest) by congruence. subst r. f_equal. f_equal. lia.
Qed.

Theorem trans_roundtrip d c :
  transToDiatonicChromatic (diatonicChromaticToTrans d c) = Some (d, c).
Proof.
  unfold diatonicChromaticToTrans. cbn [S_ list_ascii_of_string app transToDiatonicChromatic].
  unfold match_trans.
  rewrite match_int_show by reflexivity.
  cbn [app]. rewrite <- (app_nil_r (show_Z c)), match_int_show by exact I. reflexivity.
Qed.

Theorem transpose_interval_roundtrip g c :
  g <> 0 -> g <> -1 -> (g, c) <> (1, 0) ->
  intervalFromTranspose (transposeStringFromInterval g c) = Some (g, c).
Proof.
  intros H0 H1 H2. unfold intervalFromTranspose, transposeStringFromInterval. cbv zeta.
  rewrite trans_roundtrip.
  destruct (Z.ltb_spec g 0).
  - destruct (Z.eqb_spec (g + 1) 0); [lia|]. cbn [andb].
    destruct (Z.ltb_spec (g + 1) 0); [|lia]. f_equal. f_equal. lia.
  - destruct (Z.eqb_spec (g - 1) 0) as [E|E]; cbn [andb].
    + destruct (Z.eqb_spec c 0).
      * exfalso. apply H2. f_equal; lia.
      * destruct (Z.ltb_spec (g - 1) 0); [lia|]. f_equal. f_equal. lia.
    + destruct (Z.ltb_spec (g - 1) 0); [lia|]. f_equal. f_equal. lia.
Qed.

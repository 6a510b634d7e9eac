(** Property theorems C98: measure numbers. *)
From Verif Require Import PyStr PyStrProofs LayoutModel TextModel TextProofs SpineModel ImportModel BarModel NumberModel.
From Coq Require Import Lia.

(** No digit in a string. *)
Definition digit_free (s : str) : bool := forallb (fun c => negb (is_digit c)) s.
Lemma first_digits_skip a s : digit_free a = true -> first_digits (a ++ s) = first_digits s.
Proof.
  induction a as [|c a IH]; [reflexivity|]. cbn. intros H. apply andb_true_iff in H. destruct H as [C H].
  apply negb_true_iff in C. rewrite C. apply IH, H.
Qed.
Lemma name_skip a s : digit_free a = true -> name_from [] (a ++ s) = name_from [] s.
Proof.
  induction a as [|c a IH]; [reflexivity|]. cbn. intros H. apply andb_true_iff in H. destruct H as [C H].
  apply negb_true_iff in C. rewrite C. apply IH, H.
Qed.
Lemma name_digits ds s : forall run, forallb is_digit ds = true -> name_from run (ds ++ s) = name_from (run ++ ds) s.
Proof.
  induction ds as [|c ds IH]; intros run H; [rewrite app_nil_r; reflexivity|].
  cbn in *. apply andb_true_iff in H. destruct H as [C H]. rewrite C, IH by exact H. rewrite <- app_assoc. reflexivity.
Qed.
Lemma name_none a : digit_free a = true -> name_from [] a = [].
Proof. intros H. rewrite <- (app_nil_r a), name_skip by exact H. reflexivity. Qed.
Lemma digits_none a : digit_free a = true -> first_digits a = [].
Proof. intros H. rewrite <- (app_nil_r a), first_digits_skip by exact H. reflexivity. Qed.
(** The part of a barline token after the number. *)
Definition plain_tail (s : str) : bool :=
  digit_free s && match s with c :: _ => negb (is_lower c) | [] => true end.

Lemma read_number pre n suf s : digit_free pre = true -> starts_with (S_ "=") (pre ++ show_N n ++ suf ++ s) = true ->
  plain_tail s = true -> suf = [] \/ (exists c, suf = [c] /\ is_lower c = true) ->
  barlineName (pre ++ show_N n ++ suf ++ s) = match suf with [] => [] | _ => show_N n ++ suf end /\
  barlineNumber (pre ++ show_N n ++ suf ++ s) = Some n.
Proof.
  intros P ST T SU. unfold barlineName, barlineNumber, isBarlineTok. rewrite ST.
  apply andb_true_iff in T. destruct T as [TD TL].
  destruct (show_N_cons n) as (d & ds & E & D).
  pose proof (show_N_digits n) as DS.
  assert (LD : forall c, is_lower c = true -> is_digit c = false).
  { intros c H. unfold is_lower in H. unfold S_ in H. cbn in H.
    repeat (apply orb_true_iff in H; destruct H as [H|H]; [apply Ascii.eqb_eq in H; subst c; reflexivity|]). discriminate. }
  split.
  - rewrite name_skip by exact P. rewrite name_digits by exact DS. cbn [app].
    destruct SU as [-> | (c & -> & C)].
    + cbn [app]. rewrite E. destruct s as [|x s]; [reflexivity|]. cbn [name_from].
      cbn in TD. apply andb_true_iff in TD. destruct TD as [X TD]. apply negb_true_iff in X, TL. rewrite X, TL.
      apply name_none. exact TD.
    + cbn [app name_from]. rewrite (LD _ C), E, C. reflexivity.
  - rewrite first_digits_skip by exact P.
    assert (F : fst (span is_digit (show_N n ++ suf ++ s)) = show_N n).
    { rewrite span_app_all; [reflexivity|exact DS|].
      destruct SU as [-> | (c & -> & C)].
      - destruct s as [|x s]; [exact I|]. cbn [app]. cbn in TD. apply andb_true_iff in TD. apply negb_true_iff. apply TD.
      - cbn [app]. apply LD, C. }
    replace (first_digits (show_N n ++ suf ++ s)) with (show_N n).
    + rewrite E. rewrite <- E, parse_show_N. reflexivity.
    + rewrite <- F at 1. rewrite E. cbn [app first_digits]. rewrite D. reflexivity.
Qed.
Print Assumptions read_number.

(** The number of a measure, with its suffix, comes back from the barline that
    begins the measure, whatever the style of the barline and its fermata, if
    there is no suffix or it is a single lower-case letter.  "Partial" because
    other suffixes are not read. *)
Theorem C98_numbers_partial : forall n (suffix : str) sty f tok (lines : list str) i rest,
  suffix = [] \/ (exists c, suffix = [c] /\ is_lower c = true) ->
  createBarToken (measureNumberString n suffix) sty f = Some tok ->
  tokens (nth i lines []) = tok :: rest ->
  m21_number (measureNumber lines i) = (n, suffix).
Proof.
  intros n suffix sty f tok lines i rest SU CT TK.
  assert (BL : starts_with (S_ "=") tok = true).
  { clear TK. unfold createBarToken in CT. destruct (bar_suffix sty f) as [u|]; [|discriminate].
    assert (O : forall a b : str, Some a = Some b -> b = a) by (intros; congruence). apply O in CT. rewrite CT.
    destruct (measureNumberString n suffix); [reflexivity|]. destruct (str_eqb u _); [reflexivity|].
    destruct (starts_with (S_ "=;") u); reflexivity. }
  unfold measureNumber. cbv zeta. unfold isBarlineLine. rewrite TK, BL. unfold line_number. rewrite TK.
  unfold createBarToken in CT. destruct (bar_suffix sty f) as [suf|] eqn:BS; [|discriminate].
  assert (O : forall a b : str, Some a = Some b -> a = b) by (intros; congruence). apply O in CT. clear O.
  assert (PT : plain_tail suf = true /\ plain_tail (tl suf) = true).
  { unfold bar_suffix in BS. destruct sty as [v m]. destruct v, m; cbn in BS; try discriminate BS; injection BS as <-; destruct f; split; reflexivity. }
  destruct PT as [PT PT']. assert (PD : digit_free suf = true) by (apply andb_true_iff in PT; apply PT).
  unfold measureNumberString in CT. destruct (str_eqb (show_N n ++ suffix) (S_ "0")) eqn:Z.
  - apply str_eqb_eq in Z.
    assert (E0 : n = 0%N /\ suffix = []).
    { destruct (show_N_cons n) as (d & ds & E & D). destruct SU as [-> | (c & -> & C)].
      - rewrite app_nil_r in Z. split; [|reflexivity]. apply show_N_inj. exact Z.
      - exfalso. apply (f_equal (@length _)) in Z. rewrite app_length, E in Z. cbn in Z. lia. }
    destruct E0 as [-> ->]. subst tok.
    assert (F : digit_free (S_ "=" ++ suf) = true) by exact PD.
    unfold barlineName, barlineNumber. rewrite name_none, digits_none by exact F.
    destruct (isBarlineTok _); reflexivity.
  - assert (NE : show_N n ++ suffix <> []) by (destruct (show_N_cons n) as (d & ds & E & D); rewrite E; discriminate).
    assert (R : exists pre s, tok = pre ++ show_N n ++ suffix ++ s /\ digit_free pre = true /\ plain_tail s = true /\ starts_with (S_ "=") tok = true).
    { destruct (show_N n ++ suffix) as [|x xs] eqn:X; [congruence|].
      destruct (str_eqb suf (S_ "=")); [|destruct (starts_with (S_ "=;") suf)].
      - exists (S_ "=="), []. rewrite app_nil_r, X. subst tok. repeat split.
      - exists (S_ "=="), (tl suf). rewrite (app_assoc (show_N n)), X. subst tok. repeat split. exact PT'.
      - exists (S_ "="), suf. rewrite (app_assoc (show_N n)), X. subst tok. repeat split. exact PT. }
    destruct R as (pre & s & ET & P1 & P2 & P3). clear CT. rewrite ET in P3.
    destruct (read_number pre n suffix s P1 P3 P2 SU) as [RN RB]. rewrite ET, RN, RB. clear RN RB.
    destruct SU as [-> | (c & -> & C)]; [reflexivity|].
    destruct (show_N n ++ [c]) as [|x xs] eqn:X; [destruct (show_N n); discriminate|]. rewrite <- X.
    unfold m21_number. rewrite span_app_all; [cbn [fst snd]; rewrite parse_show_N; reflexivity|apply show_N_digits|].
    unfold is_lower, S_ in C. cbn in C.
    repeat (apply orb_true_iff in C; destruct C as [C|C]; [apply Ascii.eqb_eq in C; subst c; reflexivity|]). discriminate.
Qed.
Print Assumptions C98_numbers_partial.
Example C98_numbers_nonvacuous :
  createBarToken (measureNumberString 23 (S_ "a")) (Final, RepeatBackward) FermataAbove = Some (S_ "=23a:|!;>") /\
  m21_number (measureNumber [S_ "**kern	**kern"; S_ "=23a:|!;>	=23a:|!;>"] 1) = (23%N, S_ "a").
Proof. split; vm_compute; reflexivity. Qed.

(** Of a longer suffix only the first letter comes back; a suffix in upper case
    is lost. *)
Theorem C98_suffix_refuted : exists n suffix suffix' tok tok',
  createBarToken (measureNumberString n suffix) (Regular, NotRepeat) NoFermata = Some tok /\
  createBarToken (measureNumberString n suffix') (Regular, NotRepeat) NoFermata = Some tok' /\
  suffix = S_ "ab" /\ suffix' = S_ "A" /\
  m21_number (measureNumber [tok] 0) = (n, S_ "a") /\ m21_number (measureNumber [tok'] 0) = (n, []).
Proof.
  exists 5%N, (S_ "ab"), (S_ "A"). eexists. eexists. split; [vm_compute; reflexivity|]. split; [vm_compute; reflexivity|].
  split; [reflexivity|]. split; [reflexivity|]. split; vm_compute; reflexivity.
Qed.
Print Assumptions C98_suffix_refuted.

(** The first measure, if it does not begin at a barline, has the number of the
    first barline if no notes stand above it, and no number otherwise. *)
Theorem C98_first : forall above l below i,
  (forall a, In a above -> isBarlineLine a = false /\ isDataLine a = false) ->
  i < length above ->
  (isBarlineLine l = true -> measureNumber (above ++ l :: below) i = measureNumber (above ++ l :: below) (length above)) /\
  (isDataLine l = true -> measureNumber (above ++ l :: below) i = Num 0).
Proof.
  intros above l below i A L. unfold measureNumber at 1 3. cbv zeta.
  rewrite app_nth1 by exact L. destruct (A (nth i above [])) as [N _]; [apply nth_In; exact L|]. rewrite N. clear i L N.
  assert (F : first_barline (above ++ l :: below) = first_barline (l :: below)).
  { induction above as [|a above IH]; [reflexivity|]. cbn [app first_barline].
    destruct (A a (or_introl eq_refl)) as [-> ->]. apply IH. intros x X. apply A. right. exact X. }
  rewrite F. unfold measureNumber. rewrite app_nth2, Nat.sub_diag by lia. cbn [nth first_barline].
  split; intros H.
  - rewrite H. reflexivity.
  - replace (isBarlineLine l) with false; [rewrite H; reflexivity|]. unfold isDataLine in H.
    destruct (isBarlineLine l); [|reflexivity]. rewrite orb_true_r in H. discriminate.
Qed.
Print Assumptions C98_first.
Example C98_first_nonvacuous :
  measureNumber [S_ "**kern"; S_ "*M3/4"; S_ "=7"; S_ "4c"; S_ "*-"] 0 = Num 7 /\
  measureNumber [S_ "**kern"; S_ "*M3/4"; S_ "4c"; S_ "=1"; S_ "*-"] 0 = Num 0.
Proof. split; vm_compute; reflexivity. Qed.

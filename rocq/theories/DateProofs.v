(** Proofs about the date conversions. *)
From Verif Require Import PyStr PyStrProofs DateModel.

Lemma parse_zeros k s : parse_N (rep "0" k ++ s) = parse_N s.
Proof. unfold parse_N. rewrite fold_left_app. f_equal. induction k as [|k IH]; [reflexivity|exact IH]. Qed.
Lemma rep_digits k : forallb is_digit (rep "0" k) = true.
Proof. induction k as [|k IH]; [reflexivity|exact IH]. Qed.

Lemma pad_nonneg w v : (0 <= v)%Z -> exists k, pad w v = rep "0" k ++ show_N (Z.to_N v).
Proof.
  intros H. unfold pad. destruct (Z.ltb_spec v 0) as [L|L]; [lia|]. eexists. cbn [app].
  replace (Z.abs_N v) with (Z.to_N v) by lia. reflexivity.
Qed.
Lemma pad_digits w v : (0 <= v)%Z -> forallb is_digit (pad w v) = true /\ pad w v <> [] /\ Z.of_N (parse_N (pad w v)) = v.
Proof.
  intros H. destruct (pad_nonneg w v H) as [k ->]. split; [|split].
  - rewrite forallb_app, rep_digits, show_N_digits. reflexivity.
  - destruct (show_N_cons (Z.to_N v)) as (c & s & -> & _). destruct k; discriminate.
  - rewrite parse_zeros, parse_show_N. lia.
Qed.

Lemma digits_head c s : forallb is_digit (c :: s) = true -> is_digit c = true /\ forallb is_digit s = true.
Proof. cbn [forallb]. apply andb_true_iff. Qed.

Lemma py_int_digits s : s <> [] -> forallb is_digit s = true -> py_int s = Some (Z.of_N (parse_N s)).
Proof.
  intros N D. destruct s as [|c s]; [contradiction|]. destruct (digits_head _ _ D) as [C _]. unfold py_int, digits_only. rewrite D.
  destruct c as [[] [] [] [] [] [] [] []]; try reflexivity; discriminate C.
Qed.
Lemma py_int_neg s : s <> [] -> forallb is_digit s = true -> py_int ("-"%char :: s) = Some (- Z.of_N (parse_N s))%Z.
Proof. intros N D. unfold py_int, digits_only. rewrite D. destruct s; [contradiction|reflexivity]. Qed.
Lemma py_float_digits s : s <> [] -> forallb is_digit s = true -> py_float_int s = Some (Z.of_N (parse_N s)).
Proof.
  intros N D. unfold py_float_int.
  assert (E : split_sign s = (false, s)).
  { destruct s as [|c s]; [reflexivity|]. destruct (digits_head _ _ D) as [C _].
    destruct c as [[] [] [] [] [] [] [] []]; try reflexivity; discriminate C. }
  rewrite E, span_all by exact D. destruct s; [contradiction|reflexivity].
Qed.

(** ** Error marks *)
Definition marked (c : ascii) : bool := is_approx c || is_uncertain c.
Definition clean (s : str) : bool := forallb (fun c => negb (marked c)) s.
Lemma digits_clean s : forallb is_digit s = true -> clean s = true.
Proof.
  intros H. unfold clean. rewrite forallb_forall in *. intros c I. specialize (H c I).
  destruct c as [[] [] [] [] [] [] [] []]; try reflexivity; discriminate H.
Qed.
Lemma find_clean s r : clean s = true -> find marked (s ++ r) = find marked r.
Proof.
  induction s as [|c s IH]; [reflexivity|]. unfold clean. cbn [forallb app find]. intros H. apply andb_true_iff in H. destruct H as [H1 H2].
  apply negb_true_iff in H1. rewrite H1. apply IH. exact H2.
Qed.
Lemma filter_clean s x : clean s = true -> marked x = true -> filter (fun c => negb (Ascii.eqb c x)) s = s.
Proof.
  intros H M. induction s as [|c s IH]; [reflexivity|]. unfold clean in H. cbn [forallb] in H. apply andb_true_iff in H. destruct H as [H1 H2].
  cbn [filter]. destruct (Ascii.eqb_spec c x) as [->|NE]; [rewrite M in H1; discriminate H1|]. cbn [negb]. f_equal. apply IH. exact H2.
Qed.
(** One trailing mark is found and removed, whichever of its two symbols. *)
Lemma strip_mark s x : clean s = true -> marked x = true ->
  stripDateError (s ++ [x]) = (s, Some (if is_approx x then Approximate else Uncertain)).
Proof.
  intros H M. unfold stripDateError. change (fun c => is_approx c || is_uncertain c) with marked. rewrite find_clean by exact H. cbn [find]. rewrite M.
  rewrite filter_app, filter_clean by assumption. cbn [filter]. rewrite Ascii.eqb_refl. cbn [negb]. rewrite app_nil_r. reflexivity.
Qed.
Lemma strip_none s : clean s = true -> stripDateError s = (s, None).
Proof.
  intros H. unfold stripDateError. change (fun c => is_approx c || is_uncertain c) with marked.
  rewrite <- (app_nil_r s) at 1. rewrite find_clean by exact H. reflexivity.
Qed.
Lemma strip_symbol s e : clean s = true -> stripDateError (s ++ error_symbol e) = (s, e).
Proof.
  intros H. destruct e as [[]|]; cbn [error_symbol].
  - exact (strip_mark s "x" H eq_refl).
  - exact (strip_mark s "z" H eq_refl).
  - rewrite app_nil_r. apply strip_none. exact H.
Qed.
Lemma strip_suffix s e : clean s = true -> stripDateError (s ++ iso_suffix e) = (s, e).
Proof.
  intros H. destruct e as [[]|]; cbn [iso_suffix].
  - exact (strip_mark s "~" H eq_refl).
  - exact (strip_mark s "?" H eq_refl).
  - rewrite app_nil_r. apply strip_none. exact H.
Qed.

(** ** Humdrum dates *)

(** A value that can be written: not zero; only years negative; seconds below 60. *)
Definition writable (i : nat) (f : fld) : Prop :=
  match f with
  | None => True
  | Some (v, _) => v <> 0%Z /\ (i <> 0 -> (0 < v)%Z) /\ (i = 5 -> (v < 60)%Z)
  end.

Definition safe (c : ascii) : bool := is_digit c || existsb (Ascii.eqb c) ["@"; "x"; "z"]%char.

Lemma read_digits i s e : s <> [] -> forallb is_digit s = true ->
  read_chunk i (s ++ error_symbol e) = Some (Some (Z.of_N (parse_N s), e)).
Proof.
  intros N D. unfold read_chunk. rewrite strip_symbol by (apply digits_clean; exact D).
  assert (E : (if i =? 0 then at_to_minus s else s) = s).
  { unfold at_to_minus. destruct (i =? 0); [|reflexivity]. destruct s as [|c s]; [reflexivity|]. destruct (digits_head _ _ D) as [C _].
    destruct (Ascii.eqb_spec c "@") as [->|]; [discriminate C|]. rewrite andb_false_r. reflexivity. }
  rewrite E. rewrite py_int_digits, py_float_digits by assumption. destruct s; [contradiction|]. destruct (i =? 5); reflexivity.
Qed.

Lemma sixty_free v : (0 < v < 60)%Z -> starts_with (S_ "60") (pad 2 v) = false.
Proof.
  intros H. assert (A : forallb (fun n => negb (starts_with (S_ "60") (pad 2 (Z.of_nat n)))) (seq 1 59) = true) by (vm_compute; reflexivity).
  rewrite forallb_forall in A. specialize (A (Z.to_nat v)). rewrite Z2Nat.id in A by lia.
  apply negb_true_iff. apply A. apply in_seq. lia.
Qed.

Lemma attr_shape i v e : writable i (Some (v, e)) ->
  (exists s, attr_text i (Some (v, e)) = s ++ error_symbol e /\ s <> [] /\ forallb is_digit s = true /\ Z.of_N (parse_N s) = v) \/
  (i = 0 /\ exists s, attr_text i (Some (v, e)) = "@"%char :: s ++ error_symbol e /\ s <> [] /\ forallb is_digit s = true /\ (- Z.of_N (parse_N s))%Z = v).
Proof.
  intros (NZ & POS & SIX). cbn [attr_text]. destruct (Z.eqb_spec v 0) as [|_]; [contradiction|].
  destruct (Nat.eqb_spec i 0) as [->|I].
  - destruct v as [|p|p]; [contradiction| |].
    + left. exists (show_N (Npos p)). cbn [show_Z]. destruct (show_N_cons (Npos p)) as (c & s & E & C). rewrite E.
      destruct (Ascii.eqb_spec c "-") as [->|]; [discriminate C|]. rewrite andb_false_r. split; [reflexivity|]. split; [discriminate|].
      rewrite <- E, show_N_digits, parse_show_N. split; reflexivity.
    + right. split; [reflexivity|]. exists (show_N (Npos p)). cbn [show_Z]. destruct (show_N_cons (Npos p)) as (c & s & E & C).
      split; [rewrite E; reflexivity|]. split; [rewrite E; discriminate|].
      rewrite show_N_digits, parse_show_N. split; reflexivity.
  - left. specialize (POS I). destruct (pad_digits 2 v) as (D & N & P); [lia|]. exists (pad 2 v). split; [|auto].
    f_equal. destruct (Nat.eqb_spec i 5) as [->|]; [|reflexivity]. cbn [andb]. rewrite sixty_free; [reflexivity|]. specialize (SIX eq_refl). lia.
Qed.

Lemma read_attr i f : writable i f -> read_chunk i (attr_text i f) = Some f.
Proof.
  destruct f as [[v e]|]; intros W; [|cbn; destruct (i =? 0); reflexivity].
  destruct (attr_shape i v e W) as [(s & -> & N & D & P)|(-> & s & -> & N & D & P)].
  - rewrite read_digits, P by assumption. reflexivity.
  - unfold read_chunk. change ("@"%char :: s ++ error_symbol e) with (("@"%char :: s) ++ error_symbol e).
    rewrite strip_symbol by (unfold clean; cbn [forallb]; apply digits_clean in D; unfold clean in D; rewrite D; reflexivity).
    destruct s as [|c s]; [contradiction|]. cbn [Nat.eqb at_to_minus length Nat.leb andb]. rewrite Ascii.eqb_refl. cbn [andb].
    rewrite py_int_neg by (assumption || discriminate). rewrite P. reflexivity.
Qed.
Lemma attr_safe i f : writable i f -> forallb safe (attr_text i f) = true.
Proof.
  destruct f as [[v e]|]; intros W; [|reflexivity].
  assert (DS : forall s, forallb is_digit s = true -> forallb safe s = true).
  { intros s H. rewrite forallb_forall in *. intros c I. unfold safe. rewrite (H c I). reflexivity. }
  assert (E : forallb safe (error_symbol e) = true) by (destruct e as [[]|]; reflexivity).
  destruct (attr_shape i v e W) as [(s & -> & _ & D & _)|(_ & s & -> & _ & D & _)].
  - rewrite forallb_app, DS, E by exact D. reflexivity.
  - cbn [forallb]. rewrite forallb_app, DS, E by exact D. reflexivity.
Qed.
Lemma attr_nil i f : writable i f -> attr_text i f = [] <-> f = None.
Proof.
  destruct f as [[v e]|]; intros W; [|split; reflexivity]. split; [|discriminate]. intros H. exfalso.
  destruct (attr_shape i v e W) as [(s & E & N & _)|(_ & s & E & N & _)]; rewrite E in H; [|discriminate H].
  destruct s; [contradiction|discriminate H].
Qed.

Definition date_writable (d : date) : Prop :=
  (forall i, writable i (nth i (fields d) None)) /\ exists i, nth i (fields d) None <> None.

Lemma date_of_fields d : date_of (fields d) = d.
Proof. destruct d. reflexivity. Qed.

Lemma safe_no c s : forallb safe s = true -> safe c = false -> char_in c s = false.
Proof.
  intros H S. unfold char_in. apply not_true_iff_false. intros X. apply existsb_exists in X. destruct X as (y & I & E).
  apply Ascii.eqb_eq in E. subst y. rewrite forallb_forall in H. rewrite (H c I) in S. discriminate S.
Qed.
Lemma safe_map s : forallb safe s = true -> map (fun c => if Ascii.eqb c ":" then "/"%char else c) s = s.
Proof.
  induction s as [|c s IH]; [reflexivity|]. cbn [forallb map]. intros H. apply andb_true_iff in H. destruct H as [H1 H2].
  rewrite IH by exact H2. destruct (Ascii.eqb_spec c ":") as [->|]; [discriminate H1|reflexivity].
Qed.
Lemma safe_filter s : forallb safe s = true -> filter (fun c => negb (Ascii.eqb c " ")) s = s.
Proof.
  induction s as [|c s IH]; [reflexivity|]. cbn [forallb filter]. intros H. apply andb_true_iff in H. destruct H as [H1 H2].
  rewrite IH by exact H2. destruct (Ascii.eqb_spec c " ") as [->|]; [discriminate H1|reflexivity].
Qed.

(** The text is the texts of the fields, divided by slashes and colons. *)
Lemma read_split ms fs : ms <> [] -> forallb (forallb safe) ms = true -> read_chunks 0 ms = Some fs ->
  forall s, map (fun c => if Ascii.eqb c ":" then "/"%char else c) s = join (S_ "/") ms ->
  dateFromString s = if existsb present fs then Some (date_of fs) else None.
Proof.
  intros N SF R s E. unfold dateFromString. rewrite E.
  assert (F : filter (fun c => negb (Ascii.eqb c " ")) (join (S_ "/") ms) = join (S_ "/") ms).
  { clear - SF. induction ms as [|m ms IH]; [reflexivity|]. cbn [forallb] in SF. apply andb_true_iff in SF. destruct SF as [S1 S2].
    destruct ms as [|m2 ms]; [apply safe_filter; exact S1|].
    change (join (S_ "/") (m :: m2 :: ms)) with (m ++ S_ "/" ++ join (S_ "/") (m2 :: ms)). rewrite !filter_app, IH, safe_filter by assumption. reflexivity. }
  rewrite F. change (S_ "/") with ["/"%char]. rewrite split_join; [rewrite R; reflexivity|exact N|].
  rewrite forallb_forall in *. intros m I. rewrite (safe_no "/" m) by (apply SF, I || reflexivity). reflexivity.
Qed.

Definition outside (c : ascii) : Prop := safe c = false /\ c <> "/"%char /\ c <> ":"%char.

Theorem date_read_back d : date_writable d ->
  dateFromString (stringFromDate d) = Some d /\ stringFromDate d <> [] /\ forall c, outside c -> char_in c (stringFromDate d) = false.
Proof.
  intros [W [k K]]. destruct d as [y mo da h mi s]. cbn [fields] in *.
  assert (W0 : writable 0 y) by exact (W 0). assert (W1 : writable 1 mo) by exact (W 1). assert (W2 : writable 2 da) by exact (W 2).
  assert (W3 : writable 3 h) by exact (W 3). assert (W4 : writable 4 mi) by exact (W 4). assert (W5 : writable 5 s) by exact (W 5).
  change (nth k [y; mo; da; h; mi; s] None <> None) in K.
  pose proof (read_attr _ _ W0) as R0. pose proof (read_attr _ _ W1) as R1. pose proof (read_attr _ _ W2) as R2.
  pose proof (read_attr _ _ W3) as R3. pose proof (read_attr _ _ W4) as R4. pose proof (read_attr _ _ W5) as R5.
  pose proof (attr_safe _ _ W0) as S0. pose proof (attr_safe _ _ W1) as S1. pose proof (attr_safe _ _ W2) as S2.
  pose proof (attr_safe _ _ W3) as S3. pose proof (attr_safe _ _ W4) as S4. pose proof (attr_safe _ _ W5) as S5.
  pose proof (attr_nil _ _ W0) as N0. pose proof (attr_nil _ _ W1) as N1. pose proof (attr_nil _ _ W2) as N2.
  unfold stringFromDate. cbn [year month day hour minute second].
  destruct (match h, mi, s with None, None, None => true | _, _, _ => false end) eqn:T.
  - assert (h = None /\ mi = None /\ s = None) as (-> & -> & ->) by (destruct h, mi, s; try discriminate T; auto).
    clear W3 W4 W5 R3 R4 R5 S3 S4 S5 T.
    assert (P : y <> None \/ mo <> None \/ da <> None) by (do 6 (destruct k as [|k]; [cbn [nth] in K; tauto|]); destruct k; cbn in K; tauto).
    destruct da as [da|]; [|destruct mo as [mo|]].
    + assert (E2 : exists c2 a2, attr_text 2 (Some da) = c2 :: a2).
      { destruct (attr_text 2 (Some da)) as [|c2 a2]; [discriminate (proj1 N2 eq_refl)|eauto]. }
      destruct E2 as (c2 & a2 & E2).
      set (t := attr_text 0 y ++ S_ "/" ++ attr_text 1 mo ++ S_ "/" ++ attr_text 2 (Some da)).
      match goal with |- dateFromString ?x = _ /\ _ => assert (ET : x = t) end.
      { unfold t. rewrite E2. f_equal. destruct (attr_text 1 mo); cbn; rewrite <- ?app_assoc; reflexivity. }
      rewrite ET. split; [|split].
      * rewrite (read_split [attr_text 0 y; attr_text 1 mo; attr_text 2 (Some da)] [y; mo; Some da]).
        -- cbn [existsb present]. rewrite !orb_true_r. reflexivity.
        -- discriminate.
        -- cbn [forallb]. rewrite S0, S1, S2. reflexivity.
        -- cbn [read_chunks]. rewrite R0, R1, R2. reflexivity.
        -- unfold t. rewrite !map_app; repeat (rewrite (safe_map (attr_text _ _)) by assumption). reflexivity.
      * unfold t. intros X. apply app_eq_nil in X. destruct X as [_ X]. discriminate X.
      * intros c (O1 & O2 & O3). unfold t. rewrite !char_in_app; repeat (rewrite (safe_no _ (attr_text _ _)) by assumption). cbn. apply Ascii.eqb_neq in O2. rewrite O2. reflexivity.
    + assert (E2 : exists c2 a2, attr_text 1 (Some mo) = c2 :: a2).
      { destruct (attr_text 1 (Some mo)) as [|c2 a2]; [discriminate (proj1 N1 eq_refl)|eauto]. }
      destruct E2 as (c2 & a2 & E2).
      set (t := attr_text 0 y ++ S_ "/" ++ attr_text 1 (Some mo)).
      match goal with |- dateFromString ?x = _ /\ _ => assert (ET : x = t) end.
      { unfold t. rewrite E2. cbn [attr_text]. rewrite app_nil_r. reflexivity. }
      rewrite ET. split; [|split].
      * rewrite (read_split [attr_text 0 y; attr_text 1 (Some mo)] [y; Some mo]).
        -- cbn [existsb present]. rewrite !orb_true_r. reflexivity.
        -- discriminate.
        -- cbn [forallb]. rewrite S0, S1. reflexivity.
        -- cbn [read_chunks]. rewrite R0, R1. reflexivity.
        -- unfold t. rewrite !map_app; repeat (rewrite (safe_map (attr_text _ _)) by assumption). reflexivity.
      * unfold t. intros X. apply app_eq_nil in X. destruct X as [_ X]. discriminate X.
      * intros c (O1 & O2 & O3). unfold t. rewrite !char_in_app; repeat (rewrite (safe_no _ (attr_text _ _)) by assumption). cbn. apply Ascii.eqb_neq in O2. rewrite O2. reflexivity.
    + cbn [attr_text]. rewrite !app_nil_r. destruct y as [y|]; [|tauto]. split; [|split].
      * rewrite (read_split [attr_text 0 (Some y)] [Some y]).
        -- reflexivity.
        -- discriminate.
        -- cbn [forallb]. rewrite S0. reflexivity.
        -- cbn [read_chunks]. rewrite R0. reflexivity.
        -- rewrite safe_map by assumption. reflexivity.
      * intros X. discriminate (proj1 N0 X).
      * intros c (O1 & O2 & O3). apply safe_no; assumption.
  - set (t := attr_text 0 y ++ S_ "/" ++ attr_text 1 mo ++ S_ "/" ++ attr_text 2 da ++ S_ "/" ++ attr_text 3 h ++ S_ ":" ++ attr_text 4 mi ++ S_ ":" ++ attr_text 5 s).
    match goal with |- dateFromString ?x = _ /\ _ => assert (ET : x = t) by (destruct h, mi, s; try discriminate T; reflexivity) end.
    rewrite ET. split; [|split].
    + rewrite (read_split [attr_text 0 y; attr_text 1 mo; attr_text 2 da; attr_text 3 h; attr_text 4 mi; attr_text 5 s] [y; mo; da; h; mi; s]).
      * assert (X : existsb present [y; mo; da; h; mi; s] = true) by (destruct y, mo, da, h, mi, s; try discriminate T; reflexivity).
        rewrite X. reflexivity.
      * discriminate.
      * cbn [forallb]. rewrite S0, S1, S2, S3, S4, S5. reflexivity.
      * cbn [read_chunks]. rewrite R0, R1, R2, R3, R4, R5. reflexivity.
      * unfold t. rewrite !map_app; repeat (rewrite (safe_map (attr_text _ _)) by assumption). reflexivity.
    + unfold t. intros X. apply app_eq_nil in X. destruct X as [_ X]. discriminate X.
    + intros c (O1 & O2 & O3). unfold t. rewrite !char_in_app; repeat (rewrite (safe_no _ (attr_text _ _)) by assumption). cbn. apply Ascii.eqb_neq in O2, O3. rewrite O2, O3. reflexivity.
Qed.

Lemma head_not cs (s : str) : (forall c, In c cs -> char_in c s = false) -> head_in cs s = false.
Proof.
  intros H. destruct s as [|c s]; [reflexivity|]. cbn [head_in]. apply not_true_iff_false. intros X.
  apply existsb_exists in X. destruct X as (y & I & E). apply Ascii.eqb_eq in E. subst y. specialize (H c I).
  unfold char_in in H. cbn [existsb] in H. rewrite Ascii.eqb_refl in H. discriminate H.
Qed.
Lemma filter_not c (s : str) : char_in c s = false -> filter (fun x => negb (Ascii.eqb x c)) s = s.
Proof.
  induction s as [|x s IH]; [reflexivity|]. unfold char_in. cbn [existsb filter]. intros H. apply orb_false_iff in H. destruct H as [H1 H2].
  rewrite Ascii.eqb_sym, H1. cbn [negb]. f_equal. apply IH. exact H2.
Qed.
Lemma split_first_app c a b : char_in c a = false -> split_first c (a ++ c :: b) = (a, b).
Proof.
  induction a as [|x a IH]; cbn [app split_first]; [rewrite Ascii.eqb_refl; reflexivity|].
  unfold char_in. cbn [existsb]. intros H. apply orb_false_iff in H. destruct H as [H1 H2]. rewrite Ascii.eqb_sym, H1, IH by exact H2. reflexivity.
Qed.
Lemma char_in_join c sep (ws : list str) : char_in c sep = false -> (forall w, In w ws -> char_in c w = false) -> char_in c (join sep ws) = false.
Proof.
  intros S H. induction ws as [|w ws IH]; [reflexivity|]. destruct ws as [|w2 ws]; [apply H; left; reflexivity|].
  change (join sep (w :: w2 :: ws)) with (w ++ sep ++ join sep (w2 :: ws)). rewrite !char_in_app, S, (H w (or_introl eq_refl)), IH; [reflexivity|].
  intros x X. apply H. right. exact X.
Qed.

Definition prim_writable (p : dateprim) : Prop :=
  match p with
  | DateSingle d _ => date_writable d
  | DateRelative d r => date_writable d /\ (r = Prior \/ r = After)
  | DateBetween a b => date_writable a /\ date_writable b
  | DateSelection l r => Forall date_writable l /\ r = Or /\ 2 <= length l
  end.

Lemma outsiders : forall c, In c ["-"; "~"; "?"; ">"; "<"; "^"; "|"; " "]%char -> outside c.
Proof. intros c H. repeat (destruct H as [<-|H]; [split; [reflexivity|split; discriminate]|]). destruct H. Qed.

Lemma all_some_map {A B} (f : A -> option B) g l : (forall x, In x l -> f x = Some (g x)) -> all_some (map f l) = Some (map g l).
Proof.
  induction l as [|x l IH]; intros H; [reflexivity|]. cbn [map all_some]. rewrite (H x (or_introl eq_refl)), IH; [reflexivity|].
  intros y Y. apply H. right. exact Y.
Qed.


Lemma head_head cs c s : head_in cs (c :: s) = existsb (Ascii.eqb c) cs.
Proof. reflexivity. Qed.

Theorem prim_read_back p : prim_writable p -> m21DatePrimitiveFromString (stringFromM21DateObject p) = Some p.
Proof.
  assert (O : forall d c, date_writable d -> In c ["-"; "~"; "?"; ">"; "<"; "^"; "|"; " "]%char -> char_in c (stringFromDate d) = false).
  { intros d c W I. destruct (date_read_back d W) as (_ & _ & H). apply H. apply outsiders. exact I. }
  assert (HD : forall d cs, date_writable d -> incl cs ["-"; "~"; "?"; ">"; "<"; "^"; "|"; " "]%char -> head_in cs (stringFromDate d) = false).
  { intros d cs W I. apply head_not. intros c C. apply O; auto. }
  destruct p as [d r|d r|a b|l r]; cbn [prim_writable stringFromM21DateObject].
  - intros W. destruct (date_read_back d W) as (R & N & _).
    assert (C : forall c, In c ["-"; ">"; "<"; "^"; "|"]%char -> char_in c (match r with SUncertain => S_ "?" | SApproximate => S_ "~" | Certain => [] end ++ stringFromDate d) = false).
    { intros c I. rewrite char_in_app, (O d c W) by (repeat (destruct I as [<-|I]; [cbn; tauto|]); destruct I).
      repeat (destruct I as [<-|I]; [destruct r; reflexivity|]). destruct I. }
    set (t := match r with SUncertain => S_ "?" | SApproximate => S_ "~" | Certain => [] end ++ stringFromDate d) in *.
    assert (NT : t <> []) by (unfold t; destruct r; [exact N|discriminate|discriminate]).
    unfold m21DatePrimitiveFromString. rewrite (count_char_not_in "-" t) by (apply C; cbn; tauto). cbn [Nat.ltb Nat.leb Nat.eqb andb].
    rewrite (head_not ["<"%char] t), (head_not [">"%char] t) by (intros c [<-|[]]; apply C; cbn; tauto).
    rewrite (C "-"%char), (C "^"%char), (C "|"%char) by (cbn; tauto). destruct t as [|c0 t0] eqn:ET; [contradiction|]. rewrite <- ET. subst t.
    destruct r; cbn [app S_ list_ascii_of_string] in *.
    + rewrite (HD d ["~"%char] W), (HD d ["?"%char] W) by (intros c [<-|[]]; cbn; tauto). rewrite R. reflexivity.
    + rewrite head_head. cbn [existsb]. rewrite Ascii.eqb_refl. cbn [orb tl]. rewrite R. reflexivity.
    + rewrite !head_head. cbn [existsb]. rewrite Ascii.eqb_refl. change (Ascii.eqb "?" "~") with false. cbn [orb tl]. rewrite R. reflexivity.
  - intros [W K]. destruct (date_read_back d W) as (R & N & _).
    assert (SD : forall c s, stringFromDate d = c :: s -> True) by trivial.
    destruct K as [-> | ->]; unfold m21DatePrimitiveFromString; cbn [app S_ list_ascii_of_string].
    + assert (CM : count_char "-" ("<"%char :: stringFromDate d) = 0).
      { apply count_char_not_in. change ("<"%char :: stringFromDate d) with (S_ "<" ++ stringFromDate d). rewrite char_in_app, (O d) by (assumption || cbn; tauto). reflexivity. }
      rewrite CM. cbn [Nat.ltb Nat.leb Nat.eqb andb]. rewrite head_head. cbn [existsb]. rewrite Ascii.eqb_refl. cbn [orb].
      cbn [filter]. rewrite Ascii.eqb_refl. cbn [negb]. rewrite filter_not by (apply O; [exact W|cbn; tauto]).
      rewrite !(O d) by (assumption || cbn; tauto). rewrite HD by (assumption || (intros c [<-|[<-|[]]]; cbn; tauto)). rewrite R. reflexivity.
    + assert (CM : count_char "-" (">"%char :: stringFromDate d) = 0).
      { apply count_char_not_in. change (">"%char :: stringFromDate d) with (S_ ">" ++ stringFromDate d). rewrite char_in_app, (O d) by (assumption || cbn; tauto). reflexivity. }
      rewrite CM. cbn [Nat.ltb Nat.leb Nat.eqb andb]. rewrite !head_head. cbn [existsb]. rewrite Ascii.eqb_refl. change (Ascii.eqb ">" "<") with false. cbn [orb].
      cbn [filter]. rewrite Ascii.eqb_refl. cbn [negb]. rewrite filter_not by (apply O; [exact W|cbn; tauto]).
      rewrite !(O d) by (assumption || cbn; tauto). rewrite HD by (assumption || (intros c [<-|[<-|[]]]; cbn; tauto)). rewrite R. reflexivity.
  - intros [WA WB]. destruct (date_read_back a WA) as (RA & NA & _). destruct (date_read_back b WB) as (RB & NB & _).
    cbn [app S_ list_ascii_of_string]. set (t := stringFromDate a ++ "-"%char :: stringFromDate b).
    assert (T : count_char "-" t = 1).
    { unfold t. rewrite count_char_app. change ("-"%char :: stringFromDate b) with (S_ "-" ++ stringFromDate b).
      rewrite count_char_app, (count_char_not_in _ (stringFromDate a)), (count_char_not_in _ (stringFromDate b)) by (apply O; [assumption|cbn; tauto]). reflexivity. }
    assert (SP : split_char "-" t = [stringFromDate a; stringFromDate b]).
    { unfold t. rewrite split_char_app, split_char_no_sep by (apply O; [assumption|cbn; tauto]). reflexivity. }
    assert (HT : forall cs, incl cs ["~"; "?"; ">"; "<"]%char -> head_in cs t = false).
    { intros cs I. unfold t. destruct (stringFromDate a) as [|c s] eqn:E; [contradiction|]. cbn [app].
      rewrite head_head. rewrite <- (head_head cs c s), <- E. apply HD; [exact WA|]. intros x X. specialize (I x X). cbn in *. tauto. }
    assert (SF : split_first "-" t = (stringFromDate a, stringFromDate b)) by (apply split_first_app; apply O; [assumption|cbn; tauto]).
    assert (M : char_in "-" t = true) by (unfold t; rewrite char_in_app; cbn; apply orb_true_r).
    unfold m21DatePrimitiveFromString. destruct t as [|c0 t0] eqn:ET; [destruct (stringFromDate a); discriminate ET|]. rewrite <- ET in *.
    rewrite T, SP. cbn [Nat.ltb Nat.leb Nat.eqb andb existsb].
    rewrite !HD by (assumption || (intros c [<-|[<-|[<-|[<-|[]]]]]; cbn; tauto)). cbn [orb].
    rewrite !HT by (intros c [<-|[]]; cbn; tauto). rewrite M. rewrite SF.
    cbn [existsb]. rewrite !HD by (assumption || (intros c [<-|[<-|[]]]; cbn; tauto)). cbn [orb map all_some]. rewrite RA, RB. reflexivity.
  - intros (W & -> & L). rewrite Forall_forall in W. set (t := join (S_ "|") (map stringFromDate l)).
    assert (C : forall c, In c ["-"; "~"; "?"; ">"; "<"; "^"]%char -> char_in c t = false).
    { intros c I. apply char_in_join.
      - repeat (destruct I as [<-|I]; [reflexivity|]). destruct I.
      - intros w X. apply in_map_iff in X. destruct X as (d & <- & X). apply O; [apply W; exact X|]. cbn in *. tauto. }
    assert (SP : split_char "|" t = map stringFromDate l).
    { apply (split_join "|"); [destruct l; [cbn in L; lia|discriminate]|]. apply forallb_forall. intros w X. apply in_map_iff in X.
      destruct X as (d & <- & X). rewrite O; [reflexivity|apply W; exact X|cbn; tauto]. }
    assert (M : char_in "|" t = true).
    { unfold t. destruct l as [|d1 [|d2 l]]; cbn [length] in L; try lia. cbn [map].
      change (char_in "|" (stringFromDate d1 ++ S_ "|" ++ join (S_ "|") (stringFromDate d2 :: map stringFromDate l)) = true).
      rewrite !char_in_app. cbn. apply orb_true_r. }
    unfold m21DatePrimitiveFromString. destruct t as [|c0 t0] eqn:ET; [discriminate M|]. rewrite <- ET in *.
    rewrite count_char_not_in by (apply C; cbn; tauto). cbn [Nat.ltb Nat.leb Nat.eqb andb].
    rewrite !head_not by (intros c [<-|[]]; apply C; cbn; tauto).
    rewrite !C by (cbn; tauto). rewrite M, SP.
    assert (H0 : existsb (head_in ["~"; "?"]%char) (map stringFromDate l) = false).
    { apply not_true_iff_false. intros X. apply existsb_exists in X. destruct X as (w & X & Y). apply in_map_iff in X. destruct X as (d & <- & X).
      rewrite HD in Y; [discriminate Y|apply W; exact X|intros c [<-|[<-|[]]]; cbn; tauto]. }
    rewrite H0. rewrite map_map. rewrite (all_some_map _ (fun d => d)).
    + rewrite map_id. reflexivity.
    + intros d X. apply date_read_back. apply W. exact X.
Qed.

(** ** ISO dates *)

(** A calendar date: a year, perhaps a month, perhaps then a day; no time; no
    negative number. *)
Definition calendar (d : date) : Prop :=
  hour d = None /\ minute d = None /\ second d = None /\
  year d <> None /\ (day d <> None -> month d <> None) /\
  forall i v e, nth i (fields d) None = Some (v, e) -> (0 <= v)%Z.
Definition unmarked (d : date) : Prop := forall i v e, nth i (fields d) None = Some (v, e) -> e = None.

Definition isoc (c : ascii) : bool := is_digit c || Ascii.eqb c "~" || Ascii.eqb c "?".

Definition iso_text (first : bool) (x : Z * option derr) : str := pad (if first then 4 else 2) (fst x) ++ iso_suffix (snd x).
Lemma iso_text_facts b x : (0 <= fst x)%Z -> date_arg (Some (iso_text b x)) = Some (Some x) /\
  forallb isoc (iso_text b x) = true /\ exists c s, iso_text b x = c :: s /\ is_digit c = true.
Proof.
  intros H. unfold iso_text. destruct x as [v e]. cbn [fst snd] in *. destruct (pad_digits (if b then 4 else 2) v H) as (D & N & P).
  set (t := pad _ v) in *. split; [|split].
  - cbn [date_arg]. rewrite strip_suffix by (apply digits_clean; exact D). rewrite py_int_digits, P by assumption. reflexivity.
  - rewrite forallb_app. apply andb_true_iff. split.
    + rewrite forallb_forall in *. intros c I. unfold isoc. rewrite (D c I). reflexivity.
    + destruct e as [[]|]; reflexivity.
  - destruct t as [|c s]; [contradiction|]. exists c, (s ++ iso_suffix e). split; [reflexivity|]. apply (digits_head _ _ D).
Qed.

Lemma isoc_no c s : forallb isoc s = true -> isoc c = false -> char_in c s = false.
Proof.
  intros H S. unfold char_in. apply not_true_iff_false. intros X. apply existsb_exists in X. destruct X as (y & I & E).
  apply Ascii.eqb_eq in E. subst y. rewrite forallb_forall in H. rewrite (H c I) in S. discriminate S.
Qed.

(** The written text of a calendar date. *)
Lemma iso_written edtf d : calendar d -> edtf = true \/ unmarked d ->
  exists x xs, d = date_of (map Some (x :: xs)) /\ length xs <= 2 /\ Forall (fun x => (0 <= fst x)%Z) (x :: xs) /\
    isoDateFromM21Date edtf d = join (S_ "-") (iso_text true x :: map (iso_text false) xs).
Proof.
  intros (H & M & S & Y & DM & P) E. destruct d as [y mo da h mi s]. cbn [year month day hour minute second] in *. subst h mi s.
  destruct y as [[y ey]|]; [|contradiction].
  assert (EE : forall i v e, nth i (fields (mkDate (Some (y, ey)) mo da None None None)) None = Some (v, e) ->
    (match e with Some _ => negb edtf | None => false end) = false).
  { intros i v e X. destruct E as [-> |U]; [destruct e; reflexivity|]. rewrite (U i v e X). reflexivity. }
  pose proof (EE 0 y ey eq_refl) as E0. pose proof (P 0 y ey eq_refl) as P0. unfold isoDateFromM21Date, fields. cbn [year month day hour minute second iso_msgs].
  rewrite E0. destruct mo as [[mo em]|].
  - pose proof (EE 1 mo em eq_refl) as E1. pose proof (P 1 mo em eq_refl) as P1. rewrite E1. destruct da as [[da ed]|].
    + pose proof (EE 2 da ed eq_refl) as E2. pose proof (P 2 da ed eq_refl) as P2. rewrite E2.
      exists (y, ey), [(mo, em); (da, ed)]. split; [reflexivity|]. split; [cbn; lia|]. split; [repeat constructor; assumption|].
      cbn [option_map firstn length Nat.leb map]. rewrite app_nil_r. reflexivity.
    + exists (y, ey), [(mo, em)]. split; [reflexivity|]. split; [cbn; lia|]. split; [repeat constructor; assumption|].
      cbn [option_map firstn length Nat.leb map]. rewrite app_nil_r. reflexivity.
  - destruct da as [da|]; [destruct (DM ltac:(discriminate)); reflexivity|].
    exists (y, ey), []. split; [reflexivity|]. split; [cbn; lia|]. split; [repeat constructor; assumption|].
    cbn [option_map firstn length Nat.leb map]. rewrite app_nil_r. reflexivity.
Qed.

(** What its text looks like, and that it reads back. *)
Definition iso_like (s : str) : Prop :=
  (exists c t, s = c :: t /\ is_digit c = true) /\ forall c, isoc c = false -> c <> "-"%char -> char_in c s = false.

Theorem iso_read_back edtf d : calendar d -> edtf = true \/ unmarked d ->
  m21DateFromIsoDate (isoDateFromM21Date edtf d) = Some d /\ iso_like (isoDateFromM21Date edtf d).
Proof.
  intros C E. destruct (iso_written edtf d C E) as (x & xs & D & L & F & T).
  pose proof (Forall_inv F) as F0. pose proof (Forall_inv_tail F) as F1. cbn beta in F0.
  destruct (iso_text_facts true x F0) as (R0 & I0 & c0 & s0 & H0 & D0).
  assert (FX : forall z, In z xs -> date_arg (Some (iso_text false z)) = Some (Some z) /\ forallb isoc (iso_text false z) = true).
  { intros z Z. rewrite Forall_forall in F1. destruct (iso_text_facts false z (F1 z Z)) as (A & B & _). split; assumption. }
  assert (LK : iso_like (isoDateFromM21Date edtf d)).
  { rewrite T. split.
    - rewrite H0. destruct xs; cbn [map join]; [eauto|]. eexists; eexists; split; [reflexivity|exact D0].
    - intros c IC NC. apply char_in_join.
      + cbn. apply Ascii.eqb_neq in NC. rewrite NC. reflexivity.
      + intros w [<-|W]; [apply isoc_no; assumption|]. apply in_map_iff in W. destruct W as (z & <- & Z). apply isoc_no; [apply FX; exact Z|exact IC]. }
  split; [|exact LK]. destruct LK as [(c & t & ET & DC) NO].
  assert (SP : split_char "-" (isoDateFromM21Date edtf d) = iso_text true x :: map (iso_text false) xs).
  { rewrite T. apply (split_join "-"); [discriminate|]. cbn [forallb]. rewrite (isoc_no "-" _ I0 eq_refl). cbn [negb andb].
    apply forallb_forall. intros w W. apply in_map_iff in W. destruct W as (z & <- & Z). rewrite (isoc_no "-"); [reflexivity|apply FX; exact Z|reflexivity]. }
  set (s := isoDateFromM21Date edtf d) in *. unfold m21DateFromIsoDate.
  rewrite ET at 1. rewrite !(NO "/"%char), !(NO "T"%char), !(NO ":"%char) by (reflexivity || discriminate). cbn [orb negb].
  assert (X1 : Ascii.eqb c "{" = false) by (apply Ascii.eqb_neq; intros ->; discriminate DC).
  assert (X2 : Ascii.eqb c "[" = false) by (apply Ascii.eqb_neq; intros ->; discriminate DC). rewrite X1, X2. cbn [orb].
  destruct (char_in "-" s); cbn [negb andb];
  (rewrite SP, ET; cbn [length Nat.leb nth_error map all_some]; rewrite R0, D; clear - FX L;
   destruct xs as [|a [|b [|q xs]]]; cbn [length] in L; [| | |lia]; cbn [map nth_error all_some];
   [reflexivity
   |destruct (FX a (or_introl eq_refl)) as [A _]; rewrite A; reflexivity
   |destruct (FX a (or_introl eq_refl)) as [A _]; destruct (FX b (or_intror (or_introl eq_refl))) as [B _]; rewrite A, B; reflexivity]).
Qed.

(** The mark on the last value of a calendar date. *)
Definition last_mark (d : date) : option derr :=
  match day d, month d, year d with
  | Some (_, e), _, _ => e
  | None, Some (_, e), _ => e
  | None, None, Some (_, e) => e
  | None, None, None => None
  end.

Lemma iso_last_digit d : calendar d -> last_mark d = None ->
  exists t c, isoDateFromM21Date true d = t ++ [c] /\ is_digit c = true.
Proof.
  intros C M. destruct (iso_written true d C (or_introl eq_refl)) as (x & xs & D & L & F & T). rewrite T. clear T.
  assert (P : forall b y, (0 <= fst y)%Z -> snd y = None -> exists t c, iso_text b y = t ++ [c] /\ is_digit c = true).
  { intros b y H E. unfold iso_text. rewrite E. cbn [iso_suffix]. rewrite app_nil_r. destruct (pad_digits (if b then 4 else 2) (fst y) H) as (DG & N & _).
    destruct (exists_last N) as (t & c & X). exists t, c. split; [exact X|]. rewrite X, forallb_app in DG. apply andb_true_iff in DG.
    destruct DG as [_ DG]. cbn in DG. rewrite andb_true_r in DG. exact DG. }
  subst d. destruct xs as [|a [|b [|q xs]]]; cbn [length] in L; [| | |lia].
  - apply Forall_inv in F. cbn in *. apply P; [exact F|]. destruct x as [v e]. exact M.
  - apply Forall_inv_tail, Forall_inv in F. destruct (P false a F) as (t & c & E & DG); [destruct a; exact M|].
    exists (iso_text true x ++ S_ "-" ++ t), c. split; [|exact DG]. cbn [map join]. rewrite E, <- !app_assoc. reflexivity.
  - apply Forall_inv_tail, Forall_inv_tail, Forall_inv in F. destruct (P false b F) as (t & c & E & DG); [destruct b; exact M|].
    exists (iso_text true x ++ S_ "-" ++ iso_text false a ++ S_ "-" ++ t), c. split; [|exact DG]. cbn [map join]. rewrite E, <- !app_assoc. reflexivity.
Qed.

Definition prim_iso (p : dateprim) : Prop :=
  match p with
  | DateSingle d r => calendar d /\ r = Certain /\ last_mark d = None
  | DateRelative d r => calendar d /\ (r = Prior \/ r = After)
  | DateBetween a b => calendar a /\ calendar b
  | DateSelection l _ => Forall calendar l
  end.

Lemma no_dots s : char_in "." s = false -> has_dots s = false.
Proof.
  induction s as [|a s IH]; [reflexivity|]. unfold char_in. cbn [existsb has_dots]. intros H. apply orb_false_iff in H. destruct H as [H1 H2].
  destruct s as [|b s]; [reflexivity|]. rewrite Ascii.eqb_sym, H1. cbn [andb orb]. apply IH. exact H2.
Qed.
Lemma has_dots_app a b : has_dots b = true -> has_dots (a ++ b) = true.
Proof.
  intros H. induction a as [|x a IH]; [exact H|]. cbn [app has_dots]. destruct (a ++ b) eqn:E; [discriminate IH|]. rewrite IH. apply orb_true_r.
Qed.
Lemma starts_with_app p s : starts_with p (p ++ s) = true.
Proof. induction p as [|c p IH]; [reflexivity|]. cbn [app starts_with]. rewrite Ascii.eqb_refl. exact IH. Qed.
Lemma lstrip_no c s : (match s with [] => True | x :: _ => x <> c end) -> lstrip c s = s.
Proof. destruct s as [|x s]; [reflexivity|]. intros H. cbn [lstrip]. apply Ascii.eqb_neq in H. rewrite H. reflexivity. Qed.
Lemma strip_no c s : char_in c s = false -> strip_ch c s = s.
Proof.
  intros H. assert (A : forall t, char_in c t = false -> lstrip c t = t).
  { intros t T. apply lstrip_no. destruct t as [|x t]; [exact I|]. unfold char_in in T. cbn [existsb] in T. apply orb_false_iff in T.
    destruct T as [T _]. apply Ascii.eqb_neq in T. congruence. }
  unfold strip_ch. rewrite (A s H), A; [apply rev_involutive|].
  unfold char_in in *. apply not_true_iff_false. intros X. apply existsb_exists in X. destruct X as (y & I1 & E).
  apply in_rev in I1. apply not_true_iff_false in H. apply H. apply existsb_exists. eauto.
Qed.
Lemma char_in_rev c s : char_in c (rev s) = char_in c s.
Proof.
  induction s as [|x s IH]; [reflexivity|]. cbn [rev]. rewrite char_in_app, IH. unfold char_in at 2. cbn [existsb]. unfold char_in at 2. cbn [existsb].
  rewrite orb_false_r. apply orb_comm.
Qed.
(** The bracketed list loses exactly its brackets. *)
Lemma strip_brackets o c s : (o = "{"%char /\ c = "}"%char) \/ (o = "["%char /\ c = "]"%char) ->
  (forall x, In x ["{"; "}"; "["; "]"]%char -> char_in x s = false) -> removeSplitChars (o :: s ++ [c]) = s.
Proof.
  intros OC H.
  assert (A : forall x, x <> c -> strip_ch x (s ++ [c]) = s ++ [c] \/ char_in x s = true).
  { intros x NE. destruct (char_in x s) eqn:E; [right; reflexivity|left]. apply strip_no. rewrite char_in_app, E. cbn.
    apply Ascii.eqb_neq in NE. rewrite NE. reflexivity. }
  assert (ST : forall x, char_in x s = false -> x <> c -> strip_ch x (x :: s ++ [c]) = s ++ [c]).
  { intros x E NE. destruct (A x NE) as [X|X]; [|congruence]. unfold strip_ch in *. cbn [lstrip]. rewrite Ascii.eqb_refl. exact X. }
  assert (EN : char_in c s = false -> strip_ch c (s ++ [c]) = s).
  { intros E. unfold strip_ch. destruct s as [|y s].
    - cbn. rewrite Ascii.eqb_refl. reflexivity.
    - unfold char_in in E. cbn [existsb] in E. apply orb_false_iff in E. destruct E as [E1 E2].
      cbn [app lstrip]. rewrite Ascii.eqb_sym in E1. rewrite E1. change (y :: s ++ [c]) with ((y :: s) ++ [c]). rewrite rev_app_distr. cbn [rev app lstrip].
      rewrite Ascii.eqb_refl. rewrite lstrip_no; [change (rev (rev (y :: s)) = y :: s); apply rev_involutive|].
      destruct (rev s ++ [y]) as [|z zs] eqn:R; [trivial|]. intros ->. assert (X : char_in c (rev (y :: s)) = true).
      { cbn [rev]. rewrite R. unfold char_in. cbn. rewrite Ascii.eqb_refl. reflexivity. }
      rewrite char_in_rev in X. unfold char_in in X. cbn [existsb] in X. rewrite Ascii.eqb_sym, E1 in X. cbn [orb] in X. unfold char_in in E2. congruence. }
  unfold removeSplitChars. destruct OC as [[-> ->]|[-> ->]].
  - rewrite ST by (discriminate || apply H; cbn; tauto). rewrite EN by (apply H; cbn; tauto).
    rewrite (strip_no "["), (strip_no "]") by (apply H; cbn; tauto). reflexivity.
  - rewrite (strip_no "{"), (strip_no "}").
    + rewrite ST by (discriminate || apply H; cbn; tauto). apply EN. apply H; cbn; tauto.
    + change ("["%char :: s ++ ["]"%char]) with (S_ "[" ++ s ++ S_ "]"). rewrite !char_in_app, H by (cbn; tauto). reflexivity.
    + change ("["%char :: s ++ ["]"%char]) with (S_ "[" ++ s ++ S_ "]"). rewrite !char_in_app, H by (cbn; tauto). reflexivity.
Qed.

Theorem edtf_read_back p : prim_iso p ->
  exists s, edtfFromM21DatePrimitive p = Some s /\ m21DatePrimitiveFromIsoDate s = Some p.
Proof.
  assert (O : forall d, calendar d -> m21DateFromIsoDate (isoDateFromM21Date true d) = Some d /\ iso_like (isoDateFromM21Date true d)).
  { intros d C. apply iso_read_back; auto. }
  assert (OS : forall d, calendar d -> (match isoDateFromM21Date true d with [] => None | s => Some s end) = Some (isoDateFromM21Date true d)).
  { intros d C. destruct (O d C) as (_ & (c & t & E & _) & _). rewrite E. reflexivity. }
  destruct p as [d r|d r|a b|l r]; cbn [prim_iso edtfFromM21DatePrimitive].
  - intros (C & -> & M). rewrite OS by exact C. exists (isoDateFromM21Date true d). split; [reflexivity|].
    destruct (O d C) as (R & (c & t & E & DC) & N). destruct (iso_last_digit d C M) as (t' & x & E' & DX).
    unfold m21DatePrimitiveFromIsoDate. set (s := isoDateFromM21Date true d) in *.
    assert (CS : count_char "/" s = 0) by (apply count_char_not_in; apply N; [reflexivity|discriminate]).
    assert (NS : char_in "/" s = false) by (apply N; [reflexivity|discriminate]).
    assert (X1 : Ascii.eqb c "{" = false) by (apply Ascii.eqb_neq; intros ->; discriminate DC).
    assert (X2 : Ascii.eqb c "[" = false) by (apply Ascii.eqb_neq; intros ->; discriminate DC).
    assert (X3 : Ascii.eqb x "~" = false) by (apply Ascii.eqb_neq; intros ->; discriminate DX).
    assert (X4 : Ascii.eqb x "?" = false) by (apply Ascii.eqb_neq; intros ->; discriminate DX).
    assert (RV : rev s = x :: rev t') by (rewrite E', rev_app_distr; reflexivity).
    rewrite CS, NS, RV, X3, X4, R. rewrite E. cbn [Nat.ltb Nat.leb]. rewrite X1, X2. reflexivity.
  - intros (C & K). rewrite OS by exact C. cbn [option_map].
    destruct (O d C) as (R & (c & t & E & DC) & N). set (s := isoDateFromM21Date true d) in *.
    assert (NS : char_in "/" s = false) by (apply N; [reflexivity|discriminate]).
    destruct K as [-> | ->].
    + exists (S_ "../" ++ s). split; [reflexivity|]. unfold m21DatePrimitiveFromIsoDate. cbn [app S_ list_ascii_of_string].
      assert (CS : count_char "/" ("."%char :: "."%char :: "/"%char :: s) = 1).
      { change ("."%char :: "."%char :: "/"%char :: s) with (S_ "../" ++ s). rewrite count_char_app, (count_char_not_in _ s) by exact NS. reflexivity. }
      rewrite CS. change (1 <? 1) with false. change (Ascii.eqb "." "{" || Ascii.eqb "." "[") with false.
      assert (CI : char_in "/" ("."%char :: "."%char :: "/"%char :: s) = true) by reflexivity. rewrite CI.
      change (has_dots ("."%char :: "."%char :: "/"%char :: s)) with true. cbn [negb].
      cbn [starts_with Ascii.eqb Bool.eqb andb skipn]. rewrite NS, R. reflexivity.
    + exists (s ++ S_ "/.."). split; [reflexivity|]. unfold m21DatePrimitiveFromIsoDate.
      assert (CS : count_char "/" (s ++ S_ "/..") = 1) by (rewrite count_char_app, (count_char_not_in _ s) by exact NS; reflexivity).
      assert (CI : char_in "/" (s ++ S_ "/..") = true) by (rewrite char_in_app; cbn; apply orb_true_r).
      assert (HD : has_dots (s ++ S_ "/..") = true) by (apply has_dots_app; reflexivity).
      assert (EN : ends_with (S_ "/..") (s ++ S_ "/..") = true) by (unfold ends_with; rewrite rev_app_distr; apply starts_with_app).
      assert (SW : starts_with (S_ "../") (s ++ S_ "/..") = false).
      { rewrite E. cbn [app S_ list_ascii_of_string starts_with]. destruct (Ascii.eqb_spec "." c) as [<-|]; [discriminate DC|reflexivity]. }
      assert (FN : firstn (length (s ++ S_ "/..") - 3) (s ++ S_ "/..") = s).
      { rewrite app_length. cbn [length S_ list_ascii_of_string]. replace (length s + 3 - 3) with (length s + 0) by lia. rewrite firstn_app_2, app_nil_r. reflexivity. }
      assert (X1 : Ascii.eqb c "{" = false) by (apply Ascii.eqb_neq; intros ->; discriminate DC).
      assert (X2 : Ascii.eqb c "[" = false) by (apply Ascii.eqb_neq; intros ->; discriminate DC).
      rewrite CS, CI, HD, SW, EN, FN, NS, R. rewrite E at 1. cbn [app]. rewrite X1, X2. reflexivity.
  - intros (CA & CB). rewrite !OS by assumption. exists (isoDateFromM21Date true a ++ S_ "/" ++ isoDateFromM21Date true b). split; [reflexivity|].
    destruct (O a CA) as (RA & (c & t & E & DC) & NA). destruct (O b CB) as (RB & _ & NB).
    set (s := isoDateFromM21Date true a) in *. set (u := isoDateFromM21Date true b) in *.
    assert (SA : char_in "/" s = false) by (apply NA; [reflexivity|discriminate]).
    assert (SB : char_in "/" u = false) by (apply NB; [reflexivity|discriminate]).
    assert (CS : count_char "/" (s ++ S_ "/" ++ u) = 1) by (rewrite !count_char_app, (count_char_not_in _ s), (count_char_not_in _ u) by assumption; reflexivity).
    assert (CI : char_in "/" (s ++ S_ "/" ++ u) = true) by (rewrite !char_in_app; cbn; apply orb_true_r).
    assert (ND : has_dots (s ++ S_ "/" ++ u) = false).
    { apply no_dots. rewrite !char_in_app, NA, NB by (reflexivity || discriminate). reflexivity. }
    assert (SP : split_char "/" (s ++ S_ "/" ++ u) = [s; u]).
    { change (S_ "/" ++ u) with ("/"%char :: u). rewrite split_char_app, split_char_no_sep by assumption. reflexivity. }
    assert (X1 : Ascii.eqb c "{" = false) by (apply Ascii.eqb_neq; intros ->; discriminate DC).
    assert (X2 : Ascii.eqb c "[" = false) by (apply Ascii.eqb_neq; intros ->; discriminate DC).
    unfold m21DatePrimitiveFromIsoDate. rewrite CS, CI, ND, SP. rewrite E at 1. cbn [app]. rewrite X1, X2. cbn [Nat.ltb Nat.leb orb negb].
    unfold dates_of. cbn [flat_map]. rewrite RA, RB. reflexivity.
  - intros C. rewrite Forall_forall in C. rewrite (all_some_map _ (isoDateFromM21Date true)) by (intros d I; apply OS; apply C; exact I).
    cbn [option_map]. set (j := join (S_ ",") (map (isoDateFromM21Date true) l)).
    assert (NJ : forall c, isoc c = false -> c <> "-"%char -> c <> ","%char -> char_in c j = false).
    { intros c I N1 N2. apply char_in_join; [cbn; apply Ascii.eqb_neq in N2; rewrite N2; reflexivity|].
      intros w W. apply in_map_iff in W. destruct W as (d & <- & W). apply (O d (C d W)); assumption. }
    assert (DJ : dates_of (split_char "," j) = l).
    { unfold j. destruct l as [|d l]; [reflexivity|]. rewrite (split_join ","); [|discriminate|].
      - clear - O C. set (k := d :: l) in *. clearbody k. induction k as [|x k IH]; [reflexivity|]. unfold dates_of in *. cbn [map flat_map].
        rewrite (proj1 (O x (C x (or_introl eq_refl)))). cbn [app]. f_equal. apply IH. intros y Y. apply C. right. exact Y.
      - apply forallb_forall. intros w W. apply in_map_iff in W. destruct W as (x & <- & W).
        rewrite (proj2 (proj2 (O x (C x W)))); [reflexivity|reflexivity|discriminate]. }
    assert (BR : forall o c, (o = "{"%char /\ c = "}"%char) \/ (o = "["%char /\ c = "]"%char) -> removeSplitChars (o :: j ++ [c]) = j).
    { intros o c OC. apply strip_brackets; [exact OC|]. intros x X. apply NJ; repeat (destruct X as [<-|X]; [reflexivity || discriminate|]); destruct X. }
    assert (CS : forall o c, (o = "{"%char /\ c = "}"%char) \/ (o = "["%char /\ c = "]"%char) -> count_char "/" (o :: j ++ [c]) = 0 /\ has_dots (o :: j ++ [c]) = false).
    { intros o c OC. split; [apply count_char_not_in|apply no_dots]; change (o :: j ++ [c]) with ([o] ++ j ++ [c]);
      rewrite !char_in_app, NJ by (reflexivity || discriminate); destruct OC as [[-> ->]|[-> ->]]; reflexivity. }
    destruct r.
    + exists (S_ "{" ++ j ++ S_ "}"). split; [reflexivity|]. unfold m21DatePrimitiveFromIsoDate. cbn [app S_ list_ascii_of_string].
      destruct (CS "{"%char "}"%char (or_introl (conj eq_refl eq_refl))) as [K _]. rewrite K, BR, DJ by auto. reflexivity.
    + exists (S_ "[" ++ j ++ S_ "]"). split; [reflexivity|]. unfold m21DatePrimitiveFromIsoDate. cbn [app S_ list_ascii_of_string].
      destruct (CS "["%char "]"%char (or_intror (conj eq_refl eq_refl))) as [K K2]. rewrite K, K2, BR, DJ by auto. reflexivity.
Qed.

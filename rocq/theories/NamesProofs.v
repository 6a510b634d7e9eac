From Verif Require Import PyStr PyStrProofs NamesModel.

(** ** Letters *)
Definition decode (s : str) : N := fold_left (fun acc c => 26 * acc + (N_of_ascii c - 97))%N s 0%N.
Fixpoint decode_from (acc : N) (s : str) : N :=
  match s with [] => acc | c :: s' => decode_from (26 * acc + (N_of_ascii c - 97)) s' end.
Lemma letter_val d : (d < 26)%N -> (N_of_ascii (letter d) - 97 = d)%N.
Proof. intros H. unfold letter. rewrite N_ascii_roundtrip by lia. lia. Qed.
Lemma letter_lower d : (d < 26)%N -> is_lower (letter d) = true.
Proof. intros H. unfold is_lower, letter. rewrite N_ascii_roundtrip by lia. lia. Qed.

Lemma encode_loop_decode : forall fuel n e, (n < 2 ^ N.of_nat fuel)%N -> decode_from 0 (encode_loop fuel n e) = decode_from n e.
Proof.
  induction fuel as [|fuel IH]; intros n e H.
  - cbn in *. replace n with 0%N by lia. reflexivity.
  - cbn [encode_loop]. destruct (N.eqb_spec n 0) as [->|NE]; [reflexivity|].
    rewrite IH.
    + cbn [decode_from]. rewrite letter_val by (apply N.mod_lt; discriminate). rewrite <- N.div_mod by discriminate. reflexivity.
    + apply N.div_lt_upper_bound; [discriminate|]. rewrite Nat2N.inj_succ, N.pow_succ_r' in H. lia.
Qed.
Lemma encode_loop_lower : forall fuel n e, forallb is_lower e = true -> forallb is_lower (encode_loop fuel n e) = true.
Proof.
  induction fuel as [|fuel IH]; intros n e H; [exact H|]. cbn [encode_loop]. destruct (n =? 0)%N; [exact H|].
  apply IH. cbn [forallb]. rewrite letter_lower by (apply N.mod_lt; discriminate). exact H.
Qed.
Lemma encode_loop_nonempty : forall fuel n e, e <> [] -> encode_loop fuel n e <> [].
Proof.
  induction fuel as [|fuel IH]; intros n e H; [exact H|]. cbn [encode_loop]. destruct (n =? 0)%N; [exact H|]. apply IH. discriminate.
Qed.
Lemma encode_decode n : decode_from 0 (alphabet_encode n) = n.
Proof.
  unfold alphabet_encode. destruct (N.eqb_spec n 0) as [->|NE]; [reflexivity|]. rewrite encode_loop_decode; [reflexivity|].
  pose proof (N.size_gt n) as G. replace (N.of_nat (N.size_nat n)) with (N.size n); [exact G|].
  destruct n as [|p]; [reflexivity|]. cbn. clear. induction p; cbn [Pos.size Pos.size_nat]; [| |reflexivity]; 
    rewrite Nat2N.inj_succ, <- IHp; reflexivity.
Qed.
Lemma encode_inj a b : alphabet_encode a = alphabet_encode b -> a = b.
Proof. intros H. rewrite <- (encode_decode a), <- (encode_decode b), H. reflexivity. Qed.
Lemma encode_lower n : forallb is_lower (alphabet_encode n) = true.
Proof. unfold alphabet_encode. destruct (n =? 0)%N; [reflexivity|]. apply encode_loop_lower. reflexivity. Qed.
Lemma encode_nonempty n : alphabet_encode n <> [].
Proof.
  intros X. pose proof (encode_decode n) as D. rewrite X in D. cbn in D. subst n. discriminate X.
Qed.

(** ** xml ids *)
Lemma show_Z_chars z : match show_Z z with [] => False | c :: s => (is_digit c = true \/ c = "-"%char) /\ forallb is_digit s = true end.
Proof.
  destruct z as [|p|p]; cbn [show_Z].
  - cbn. auto.
  - destruct (show_N_cons (Npos p)) as (c & s & E & D). pose proof (show_N_digits (Npos p)) as A. rewrite E in *.
    cbn [forallb] in A. apply andb_true_iff in A. tauto.
  - split; [right; reflexivity|apply show_N_digits].
Qed.
Lemma show_Z_inj a b : show_Z a = show_Z b -> a = b.
Proof.
  assert (D : forall n s, show_N n = "-"%char :: s -> False).
  { intros n s H. destruct (show_N_cons n) as (c & s' & E & C). rewrite E in H. injection H as -> _. discriminate C. }
  destruct a as [|p|p], b as [|q|q]; cbn [show_Z]; intros H.
  - reflexivity.
  - apply show_N_inj in H. discriminate.
  - destruct (D _ _ H).
  - apply show_N_inj in H. discriminate.
  - apply show_N_inj in H. congruence.
  - destruct (D _ _ H).
  - symmetry in H. destruct (D _ _ H).
  - symmetry in H. destruct (D _ _ H).
  - injection H as H. apply show_N_inj in H. congruence.
Qed.

(** The part of an xml id before the prefix is added. *)
Definition bare (m : N) (z : Z) : str :=
  if (z <? Z.of_N m)%Z then show_Z z else alphabet_encode (Z.to_N z).
Definition no_dash_tail (s : str) : Prop := s <> [] /\ forall c s', s = c :: s' -> char_in "-" s' = false.

Lemma bare_shape m z : no_dash_tail (bare m z).
Proof.
  unfold bare. destruct (z <? Z.of_N m)%Z.
  - pose proof (show_Z_chars z) as H. destruct (show_Z z) as [|c s]; [contradiction|]. destruct H as [_ H].
    split; [discriminate|]. intros c' s' E. injection E as <- <-. apply digits_no_char; [reflexivity|exact H].
  - split; [apply encode_nonempty|]. intros c s E. pose proof (encode_lower (Z.to_N z)) as L. rewrite E in L.
    cbn [forallb] in L. apply andb_true_iff in L. destruct L as [_ L]. clear E.
    induction s as [|x s IH]; [reflexivity|]. cbn [forallb] in L. apply andb_true_iff in L. destruct L as [L1 L2].
    unfold char_in in *. cbn [existsb]. rewrite IH by exact L2. rewrite orb_false_r. destruct (Ascii.eqb_spec "-" x); [subst; discriminate|reflexivity].
Qed.
Lemma bare_inj m a b : bare m a = bare m b -> a = b.
Proof.
  assert (X : forall z n, show_Z z = alphabet_encode n -> False).
  { intros z n H. pose proof (show_Z_chars z) as C. pose proof (encode_lower n) as L. rewrite H in C.
    destruct (alphabet_encode n) as [|c s]; [contradiction|]. cbn [forallb] in L. apply andb_true_iff in L. destruct L as [L _].
    destruct C as [[C| ->] _]; [|discriminate L]. unfold is_digit, is_lower in *. lia. }
  unfold bare. destruct (Z.ltb_spec a (Z.of_N m)), (Z.ltb_spec b (Z.of_N m)); intros H'.
  - apply show_Z_inj. exact H'.
  - destruct (X _ _ H').
  - symmetry in H'. destruct (X _ _ H').
  - apply encode_inj in H'. lia.
Qed.
Lemma app_dash p s : p <> [] -> ~ no_dash_tail (p ++ S_ "-" ++ s).
Proof.
  intros N [_ H]. destruct p as [|c p]; [contradiction|]. specialize (H c (p ++ S_ "-" ++ s) eq_refl).
  rewrite char_in_app in H. apply orb_false_iff in H. destruct H as [_ H]. discriminate H.
Qed.

Theorem makeXmlIdFrom_inj m p a b : makeXmlIdFrom m a p = makeXmlIdFrom m b p -> a = b.
Proof.
  unfold makeXmlIdFrom. fold (bare m a) (bare m b). destruct p as [|c p]; [apply bare_inj|].
  destruct (starts_with _ (map to_lower (bare m a))), (starts_with _ (map to_lower (bare m b))); intros H.
  - exact (bare_inj _ _ _ H).
  - exfalso. apply (app_dash (c :: p) (bare m b)); [discriminate|]. rewrite <- H. apply bare_shape.
  - exfalso. apply (app_dash (c :: p) (bare m a)); [discriminate|]. rewrite H. apply bare_shape.
  - apply app_inv_head in H. apply app_inv_head in H. exact (bare_inj _ _ _ H).
Qed.

(** ** Role names *)
Lemma upper_lower c : is_upper c = true -> to_upper (to_lower c) = c /\ is_lower (to_lower c) = true /\ Ascii.eqb (to_lower c) " " = false.
Proof. destruct c as [[] [] [] [] [] [] [] []]; intros H; vm_compute in H; try discriminate H; vm_compute; auto. Qed.
Lemma lower_upper c : is_lower c = true -> to_lower (to_upper c) = c /\ is_upper (to_upper c) = true.
Proof. destruct c as [[] [] [] [] [] [] [] []]; intros H; vm_compute in H; try discriminate H; vm_compute; auto. Qed.
Lemma not_upper c : is_upper c = false -> to_lower c = c.
Proof. intros H. unfold to_lower. rewrite H. reflexivity. Qed.

Theorem camel_words s : char_in " " s = false -> spaceDelimitedToCamelCase (camelCaseToSpaceDelimited s) = s.
Proof.
  unfold spaceDelimitedToCamelCase. induction s as [|c s IH]; [reflexivity|]. intros H.
  unfold char_in in H. cbn [existsb] in H. apply orb_false_iff in H. destruct H as [H1 H2]. specialize (IH H2).
  cbn [camelCaseToSpaceDelimited]. destruct (is_upper c) eqn:U.
  - destruct (upper_lower c U) as (A & _ & B). cbn [to_camel]. rewrite Ascii.eqb_refl, B, A, IH. reflexivity.
  - cbn [to_camel]. rewrite Ascii.eqb_sym, H1, not_upper, IH by exact U. reflexivity.
Qed.

(** Lower-case words: no capitals, and a lower-case letter after every space. *)
Fixpoint words (after_space : bool) (s : str) : Prop :=
  match s with
  | [] => after_space = false
  | c :: s' => if Ascii.eqb c " " then after_space = false /\ words true s'
               else (if after_space then is_lower c = true else is_upper c = false) /\ words false s'
  end.

Theorem words_camel s : words false s <-> camelCaseToSpaceDelimited (spaceDelimitedToCamelCase s) = s.
Proof.
  unfold spaceDelimitedToCamelCase.
  assert (G : forall s, (words false s <-> camelCaseToSpaceDelimited (to_camel false s) = s) /\
                        (words true s <-> camelCaseToSpaceDelimited (to_camel true s) = " "%char :: s)); [|apply G].
  clear s. induction s as [|c s [IH1 IH2]].
  - cbn. split; split; intros H; try reflexivity; discriminate H.
  - cbn [words to_camel]. destruct (Ascii.eqb_spec c " ") as [->|NE].
    + split; split.
      * intros [_ H]. apply IH2. exact H.
      * intros H. split; [reflexivity|]. apply IH2. exact H.
      * intros [X _]. discriminate X.
      * intros H. exfalso.
        assert (L : forall b s, length (camelCaseToSpaceDelimited (to_camel b s)) <= length s + (if b then 1 else 0)).
        { clear. intros b s. revert b. induction s as [|c s IH]; intros b; [cbn; lia|]. cbn [to_camel].
          destruct (Ascii.eqb c " "); [specialize (IH true); cbv iota in IH; destruct b; cbn [length]; lia|].
          destruct b; cbn [camelCaseToSpaceDelimited].
          - destruct (is_upper (to_upper c)); specialize (IH false); cbv iota in IH; cbn [length]; lia.
          - destruct (is_upper (to_lower c)) eqn:U; [|specialize (IH false); cbv iota in IH; cbn [length]; lia].
            exfalso. destruct c as [[] [] [] [] [] [] [] []]; vm_compute in U; discriminate U. }
        specialize (L true s). rewrite H in L. cbn [length] in L. lia.
    + split; split; cbn [camelCaseToSpaceDelimited].
      * intros [U W]. rewrite not_upper by exact U. rewrite U. f_equal. apply IH1. exact W.
      * intros H. destruct (is_upper (to_lower c)) eqn:U.
        { exfalso. destruct c as [[] [] [] [] [] [] [] []]; vm_compute in U; discriminate U. }
        injection H as H1 H2. split; [rewrite <- H1; exact U|apply IH1; exact H2].
      * intros [L W]. destruct (lower_upper c L) as [E U]. rewrite U, E. f_equal. f_equal. apply IH1. exact W.
      * intros H. destruct (is_upper (to_upper c)) eqn:U.
        { injection H as H1 H2. split; [|apply IH1; exact H2].
          rewrite <- H1. apply upper_lower. exact U. }
        injection H as H1 _. exfalso. destruct c as [[] [] [] [] [] [] [] []]; vm_compute in H1; try discriminate H1; vm_compute in U; discriminate U || (apply NE; reflexivity).
Qed.

(** ** Display names *)
Theorem display_name b : (0 <= b)%Z ->
  exists step octave, splitM21PitchNameIntoNameAccidOctave (base7ToDisplayName b) = ([step], S_ "n", octave) /\
    pitchToBase7 step (Z.of_N (parse_N octave)) = Some b.
Proof.
  intros H. unfold base7ToDisplayName. set (k := Z.to_nat (b mod 7)).
  assert (K : k < 7) by (pose proof (Z.mod_pos_bound b 7); lia).
  exists (nth k step_names "?"%char), (show_Z (b / 7)).
  assert (D : (0 <= b / 7)%Z) by (apply Z.div_pos; lia).
  assert (E : show_Z (b / 7) = show_N (Z.to_N (b / 7))).
  { destruct (b / 7)%Z as [|p|p]; [reflexivity|reflexivity|lia]. }
  rewrite E. destruct (show_N_cons (Z.to_N (b / 7))) as (c & s & C & DG). split.
  - unfold splitM21PitchNameIntoNameAccidOctave.
    assert (M : existsb (Ascii.eqb (nth k step_names "?"%char)) step_names = true).
    { do 7 (destruct k as [|k]; [reflexivity|]). lia. }
    rewrite M. rewrite C. assert (A : is_accid c = false).
    { unfold is_accid. destruct (Ascii.eqb_spec c "-"); [subst; discriminate|]. destruct (Ascii.eqb_spec c "#"); [subst; discriminate|reflexivity]. }
    cbn [span]. rewrite A. cbv iota beta. rewrite <- C, span_all by apply show_N_digits. rewrite C. reflexivity.
  - rewrite parse_show_N, Z2N.id by exact D. unfold pitchToBase7.
    assert (I : index_of (nth k step_names "?"%char) step_names = Some k).
    { do 7 (destruct k as [|k]; [reflexivity|]). lia. }
    rewrite I. cbn [option_map]. f_equal. unfold k. rewrite Z2Nat.id by (apply Z.mod_pos_bound; lia).
    pose proof (Z.div_mod b 7). lia.
Qed.

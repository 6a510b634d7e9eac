(** Proofs about the measures of an imported file. *)
From Verif Require Import PyStr PyStrProofs LayoutModel TextModel SpineModel SpineProofs ImportModel.
From Coq Require Import Lia.

(** ** Vocabulary of the properties *)

(** Line [i] holds data: it is not empty, no comment, no interpretation, and its
    first token is no barline. *)
Definition data_line (lines : list str) (i : nat) : Prop :=
  exists c text, nth_error lines i = Some (c :: text) /\ c <> "!"%char /\ c <> "*"%char /\
    forall t ts, tokens (c :: text) = t :: ts -> hd_error t <> Some "="%char.
(** Line [i] is a barline. *)
Definition bar_line (lines : list str) (i : nat) : Prop :=
  exists text t ts, nth_error lines i = Some text /\ tokens text = t :: ts /\ hd_error t = Some "="%char.
(** Line [i] is one of the lines of measure [k]. *)
Definition in_measure (ms : list (nat * nat)) (k i : nat) : Prop :=
  exists s e, nth_error ms k = Some (s, e) /\ s <= i <= e.

Lemma starts_char c s : starts_with [c] s = true <-> hd_error s = Some c.
Proof.
  destruct s as [|d s]; cbn; [split; discriminate|].
  destruct (Ascii.eqb_spec c d); cbn; split; intros H; try congruence; try discriminate.
Qed.

Lemma isDataLine_spec lines i : nth i (map isDataLine lines) false = true <-> data_line lines i.
Proof.
  unfold data_line. split.
  - intros H. destruct (nth_error lines i) as [t|] eqn:E.
    2:{ rewrite nth_overflow in H; [discriminate|]. rewrite map_length. apply nth_error_None. exact E. }
    assert (H' : isDataLine t = true).
    { erewrite nth_error_nth in H; [exact H|]. apply map_nth_error. exact E. }
    clear H. unfold isDataLine in H'. apply negb_true_iff in H'.
    apply orb_false_iff in H'. destruct H' as [H1 H2].
    apply orb_false_iff in H1. destruct H1 as [H1 H3].
    apply orb_false_iff in H1. destruct H1 as [H1 H4].
    destruct t as [|c t]; [discriminate|]. exists c, t. split; [reflexivity|].
    split; [|split].
    + intros ->. cbn in H1. discriminate.
    + intros ->. cbn in H4. discriminate.
    + intros u ts U V. unfold isBarlineLine in H3. rewrite U in H3.
      apply starts_char in V. change (S_ "=") with ["="%char] in H3. congruence.
  - intros (c & t & E & N1 & N2 & B).
    erewrite nth_error_nth; [|apply map_nth_error; exact E].
    unfold isDataLine. apply negb_true_iff.
    replace (starts_with (S_ "!") (c :: t)) with false.
    2:{ symmetry. apply not_true_is_false. intros X. change (S_ "!") with ["!"%char] in X. apply starts_char in X. cbn in X. congruence. }
    replace (isInterpretationLine (c :: t)) with false.
    2:{ symmetry. apply not_true_is_false. intros X. unfold isInterpretationLine in X. change (S_ "*") with ["*"%char] in X. apply starts_char in X. cbn in X. congruence. }
    unfold isBarlineLine. destruct (tokens (c :: t)) as [|u us] eqn:U; [reflexivity|].
    cbn [orb]. rewrite orb_false_r. apply not_true_is_false. intros X. change (S_ "=") with ["="%char] in X. apply starts_char in X.
    exact (B _ _ eq_refl X).
Qed.

Lemma isBarlineLine_spec lines i : nth i (map isBarlineLine lines) false = true <-> bar_line lines i.
Proof.
  unfold bar_line. split.
  - intros H. destruct (nth_error lines i) as [t|] eqn:E.
    2:{ rewrite nth_overflow in H; [discriminate|]. rewrite map_length. apply nth_error_None. exact E. }
    erewrite nth_error_nth in H; [|apply map_nth_error; exact E].
    unfold isBarlineLine in H. destruct (tokens t) as [|u us] eqn:U; [discriminate|].
    exists t, u, us. split; [reflexivity|]. split; [exact U|]. apply starts_char. exact H.
  - intros (t & u & us & E & U & V). erewrite nth_error_nth; [|apply map_nth_error; exact E].
    unfold isBarlineLine. rewrite U. apply starts_char. exact V.
Qed.

Definition D (lines : list str) (i : nat) : bool := nth i (map isDataLine lines) false.
Definition B (lines : list str) (i : nat) : bool := nth i (map isBarlineLine lines) false.

Lemma nth_map_nth {A C} (f : A -> C) l i d e : i < length l -> nth i (map f l) e = f (nth i l d).
Proof. intros H. rewrite (nth_indep _ e (f d)) by (rewrite map_length; exact H). apply map_nth. Qed.

Lemma D_B lines i : D lines i = true -> B lines i = false.
Proof.
  unfold D, B. destruct (Nat.lt_ge_cases i (length lines)) as [L|L].
  2:{ intros H. rewrite nth_overflow in H by (rewrite map_length; exact L). discriminate. }
  rewrite !(nth_map_nth _ _ _ ([] : str)) by exact L. unfold isDataLine. intros H.
  destruct (isBarlineLine (nth i lines [])); [|reflexivity].
  rewrite orb_true_r in H. discriminate.
Qed.
Lemma D_lt lines i : D lines i = true -> i < length lines.
Proof.
  intros H. destruct (Nat.lt_ge_cases i (length lines)) as [L|L]; [exact L|].
  unfold D in H. rewrite nth_overflow in H by (rewrite map_length; exact L). discriminate.
Qed.
Lemma B_lt lines i : B lines i = true -> i < length lines.
Proof.
  intros H. destruct (Nat.lt_ge_cases i (length lines)) as [L|L]; [exact L|].
  unfold B in H. rewrite nth_overflow in H by (rewrite map_length; exact L). discriminate.
Qed.

(** What the scan finds, over the lines from [i] on. *)
Lemma scan_spec lines : forall rest i found, rest = skipn i lines -> i <= length lines ->
  forall r f, scan_measure i found rest = (r, f) ->
  match r with
  | Some e => i <= e < length lines /\ B lines e = true /\ D lines e = false /\
      (forall j, i <= j < e -> B lines j = false) /\
      (f = true <-> found = true \/ exists j, i <= j < e /\ D lines j = true)
  | None => (forall j, i <= j -> B lines j = false) /\
      (f = true <-> found = true \/ exists j, i <= j /\ D lines j = true)
  end.
Proof.
  induction rest as [|l rest IH]; intros i found R L r f H.
  - cbn in H. injection H as <- <-.
    assert (i = length lines).
    { assert (X : length (skipn i lines) = 0) by (rewrite <- R; reflexivity). rewrite skipn_length in X. lia. }
    split.
    + intros j J. destruct (B lines j) eqn:X; [|reflexivity]. apply B_lt in X. lia.
    + split; [intros; left; assumption|]. intros [X|(j & J & X)]; [exact X|]. apply D_lt in X. lia.
  - assert (Li : i < length lines).
    { destruct (Nat.lt_ge_cases i (length lines)); [assumption|]. rewrite skipn_all2 in R by lia. discriminate. }
    assert (N : nth i lines [] = l /\ rest = skipn (S i) lines).
    { assert (X : skipn i lines = nth i lines [] :: skipn (S i) lines).
      { clear -Li. revert i Li. induction lines as [|a ls IHl]; intros i Li; [cbn in Li; lia|].
        destruct i; [reflexivity|]. cbn [skipn nth]. apply IHl. cbn in Li. lia. }
      rewrite X in R. injection R as R1 R2. split; [symmetry; exact R1|exact R2]. }
    destruct N as [N R'].
    assert (Di : D lines i = isDataLine l).
    { unfold D. rewrite (nth_map_nth _ _ _ ([] : str)) by exact Li. rewrite N. reflexivity. }
    assert (Bi : B lines i = isBarlineLine l).
    { unfold B. rewrite (nth_map_nth _ _ _ ([] : str)) by exact Li. rewrite N. reflexivity. }
    cbn [scan_measure] in H.
    assert (Step : forall found', (isDataLine l = false -> isBarlineLine l = false) ->
       found' = (if isDataLine l then true else found) ->
       scan_measure (S i) found' rest = (r, f) ->
       match r with
       | Some e => i <= e < length lines /\ B lines e = true /\ D lines e = false /\
           (forall j, i <= j < e -> B lines j = false) /\
           (f = true <-> found = true \/ exists j, i <= j < e /\ D lines j = true)
       | None => (forall j, i <= j -> B lines j = false) /\
           (f = true <-> found = true \/ exists j, i <= j /\ D lines j = true)
       end).
    { intros found' NB F H'. specialize (IH (S i) found' R' ltac:(lia) r f H').
      assert (Bf : B lines i = false).
      { rewrite Bi. destruct (isDataLine l) eqn:E; [|auto]. rewrite <- Bi. apply D_B. rewrite Di. reflexivity. }
      destruct r as [e|].
      - destruct IH as (J1 & J2 & J3 & J4 & J5). split; [lia|]. split; [exact J2|]. split; [exact J3|]. split.
        + intros j J. destruct (Nat.eq_dec j i) as [->|]; [exact Bf|apply J4; lia].
        + rewrite J5. rewrite F. split.
          * intros [X|(j & J & X)].
            -- destruct (isDataLine l) eqn:E; [right; exists i; split; [lia|rewrite Di; reflexivity]|left; exact X].
            -- right. exists j. split; [lia|exact X].
          * intros [X|(j & J & X)].
            -- left. rewrite X. destruct (isDataLine l); reflexivity.
            -- destruct (Nat.eq_dec j i) as [->|].
               ++ left. rewrite Di in X. rewrite X. reflexivity.
               ++ right. exists j. split; [lia|exact X].
      - destruct IH as (J4 & J5). split.
        + intros j J. destruct (Nat.eq_dec j i) as [->|]; [exact Bf|apply J4; lia].
        + rewrite J5. rewrite F. split.
          * intros [X|(j & J & X)].
            -- destruct (isDataLine l) eqn:E; [right; exists i; split; [lia|rewrite Di; reflexivity]|left; exact X].
            -- right. exists j. split; [lia|exact X].
          * intros [X|(j & J & X)].
            -- left. rewrite X. destruct (isDataLine l); reflexivity.
            -- destruct (Nat.eq_dec j i) as [->|].
               ++ left. rewrite Di in X. rewrite X. reflexivity.
               ++ right. exists j. split; [lia|exact X]. }
    destruct (isDataLine l) eqn:E1.
    + apply (Step true); auto. discriminate.
    + destruct (isBarlineLine l) eqn:E2.
      * injection H as <- <-. split; [lia|]. split; [rewrite Bi; reflexivity|]. split; [rewrite Di; reflexivity|].
        split; [intros; lia|]. split; [auto|]. intros [X|(j & J & _)]; [exact X|lia].
      * apply (Step found); auto.
Qed.

Definition no_data (lines : list str) (a b : nat) : Prop := forall j, a < j <= b -> D lines j = false.

(** The measures found from line [L] on: [(s, e)] holds the data lines after
    line [L'] up to [e]. *)
Inductive chain (lines : list str) : nat -> list (nat * nat) -> Prop :=
| chain_nil L : (forall i, L < i -> D lines i = false) -> chain lines L []
| chain_cons L L' s e ms :
    L <= L' -> L' < e < length lines -> no_data lines L L' ->
    (L' = L \/ B lines L' = true) ->
    (forall j, L' < j < e -> B lines j = false) ->
    (exists j, L' < j <= e /\ D lines j = true) ->
    s = repositionStartIndex lines L' ->
    (B lines e = true /\ D lines e = false \/ e = length lines - 1) ->
    chain lines e ms -> chain lines L ((s, e) :: ms).

Lemma chain_weaken lines L L1 ms : L <= L1 -> no_data lines L L1 -> B lines L1 = true ->
  chain lines L1 ms -> chain lines L ms.
Proof.
  intros H N HB C. destruct C as [L1 E|L1 L' s e ms A1 A2 A3 A4 A5 A6 A7 A8 A9].
  - apply chain_nil. intros i I. destruct (Nat.le_gt_cases i L1); [apply N; lia|apply E; lia].
  - apply (chain_cons lines L L' s e ms); auto; try lia.
    + intros j J. destruct (Nat.le_gt_cases j L1); [apply N; lia|apply A3; lia].
    + right. destruct A4 as [->|]; assumption.
Qed.

Lemma loop_chain lines fuel : forall L, L < length lines -> length lines - L <= fuel ->
  chain lines L (measure_loop fuel lines L).
Proof.
  induction fuel as [|fuel IH]; intros L HL HF; [lia|].
  cbn [measure_loop]. destruct (Nat.ltb_spec L (length lines - 1)) as [Q|Q].
  2:{ apply chain_nil. intros i I. destruct (D lines i) eqn:E; [|reflexivity]. apply D_lt in E. lia. }
  unfold measureKey, measureEndLineIndex.
  destruct (scan_measure (S L) false (skipn (S L) lines)) as [r f] eqn:E.
  pose proof (scan_spec lines _ (S L) false eq_refl ltac:(lia) r f E) as SP.
  destruct r as [e|].
  - destruct SP as (S1 & S2 & S3 & S4 & S5). destruct f.
    + replace (Z.of_nat e <? 0)%Z with false by (symmetry; apply Z.ltb_ge; lia).
      rewrite Nat2Z.id. destruct (proj1 S5 eq_refl) as [X|(j & J & X)]; [discriminate|].
      apply (chain_cons lines L L _ e); auto; try lia.
      * intros i I; lia.
      * exists j. split; [lia|exact X].
      * apply IH; lia.
    + replace (- Z.of_nat e <? 0)%Z with true by (symmetry; apply Z.ltb_lt; lia).
      rewrite Z.opp_involutive, Nat2Z.id. apply chain_weaken with (L1 := e); auto; try lia.
      * intros j J. destruct (D lines j) eqn:X; [|reflexivity].
        assert (j <> e) by congruence.
        assert (false = true); [apply S5; right; exists j; split; [lia|exact X]|discriminate].
      * apply IH; lia.
  - destruct SP as (S4 & S5). destruct f.
    + replace (Z.of_nat (length lines - 1) <? 0)%Z with false by (symmetry; apply Z.ltb_ge; lia).
      rewrite Nat2Z.id. destruct (proj1 S5 eq_refl) as [X|(j & J & X)]; [discriminate|].
      apply (chain_cons lines L L _ (length lines - 1)); auto; try lia.
      * intros i I; lia.
      * intros i I. apply S4. lia.
      * exists j. pose proof (D_lt _ _ X). split; [lia|exact X].
      * apply IH; lia.
    + replace (- Z.of_nat (length lines - 1) <? 0)%Z with true by (symmetry; apply Z.ltb_lt; lia).
      rewrite Z.opp_involutive, Nat2Z.id.
      assert (N : forall j, L < j -> D lines j = false).
      { intros j J. destruct (D lines j) eqn:X; [|reflexivity].
        assert (false = true); [apply S5; right; exists j; split; [lia|exact X]|discriminate]. }
      destruct fuel; cbn [measure_loop]; [apply chain_nil; exact N|].
      rewrite Nat.ltb_irrefl. apply chain_nil. exact N.
Qed.

(** The start of a measure: nothing but headers before the first data. *)
Lemma first_spined_ge rest : forall i, 1 <= i -> i - 1 <= first_spined i rest.
Proof.
  induction rest as [|l r IH]; intros i I; cbn; [lia|]. destruct (hasSpines l); [lia|].
  specialize (IH (S i) ltac:(lia)). lia.
Qed.
Lemma first_spined_skips rest : forall i j, i <= j < first_spined i rest -> hasSpines (nth (j - i) rest []) = false.
Proof.
  induction rest as [|l r IH]; intros i j I; cbn [first_spined] in I; [lia|].
  destruct (hasSpines l) eqn:E; [lia|].
  destruct (Nat.eq_dec j i) as [->|].
  - rewrite Nat.sub_diag. exact E.
  - replace (j - i) with (S (j - S i)) by lia. cbn [nth]. apply IH. lia.
Qed.

Lemma data_hasSpines lines i : D lines i = true -> hasSpines (nth i lines []) = true.
Proof.
  intros H. pose proof (D_lt _ _ H) as L. unfold D in H. rewrite (nth_map_nth _ _ _ ([] : str)) in H by exact L.
  unfold hasSpines, isGlobalLine. unfold isDataLine in H.
  destruct (nth i lines []) as [|c t]; [cbn in H; rewrite ?orb_true_r in H; discriminate|].
  apply negb_true_iff. apply not_true_is_false. intros X.
  change (S_ "!!") with ["!"; "!"]%char in X. cbn [starts_with] in X. apply andb_true_iff in X. destruct X as [X _].
  apply Ascii.eqb_eq in X. subst c. cbn in H. discriminate.
Qed.

Lemma existsb_firstn lines : forall n, existsb isDataLine (firstn n lines) = true <-> exists j, j < n /\ D lines j = true.
Proof.
  induction lines as [|l ls IH]; intros n.
  - rewrite firstn_nil. cbn. split; [discriminate|]. intros (j & _ & X). destruct j; discriminate.
  - destruct n as [|n]; [cbn; split; [discriminate|intros (j & J & _); lia]|].
    cbn [firstn existsb]. rewrite orb_true_iff, IH. split.
    + intros [X|(j & J & X)]; [exists 0; split; [lia|exact X]|exists (S j); split; [lia|exact X]].
    + intros ([|j] & J & X); [left; exact X|right; exists j; split; [lia|exact X]].
Qed.

Lemma nth_skipn_plus {A} (d : A) l : forall n k, nth k (skipn n l) d = nth (n + k) l d.
Proof.
  induction l as [|a l IH]; intros [|n] k; cbn [skipn plus nth]; try reflexivity; [destruct k; reflexivity|apply IH].
Qed.

(** The data lines of a measure that starts at line [L] (no data line itself)
    are those after [L]. *)
Lemma reposition_after lines L i : L < length lines -> D lines L = false -> D lines i = true ->
  L < i -> repositionStartIndex lines L <= i.
Proof.
  intros HL HD Hi H. unfold repositionStartIndex.
  set (s := if existsb isDataLine (firstn (S L) lines) then L else 0).
  assert (s <= L) by (unfold s; destruct (existsb isDataLine (firstn (S L) lines)); lia).
  destruct (nth s lines []) eqn:E; [|lia].
  destruct (Nat.le_gt_cases (first_spined (S s) (skipn (S s) lines)) i) as [X|X]; [exact X|exfalso].
  assert (Y := first_spined_skips (skipn (S s) lines) (S s) i ltac:(lia)).
  rewrite nth_skipn_plus in Y. replace (S s + (i - S s)) with i in Y by lia.
  rewrite data_hasSpines in Y by exact Hi. discriminate.
Qed.
Lemma reposition_before lines L i : L < length lines -> D lines L = false -> D lines i = true ->
  repositionStartIndex lines L <= i -> L < i.
Proof.
  intros HL HD Hi H. unfold repositionStartIndex in H.
  destruct (existsb isDataLine (firstn (S L) lines)) eqn:E.
  - assert (L <= i).
    { destruct (nth L lines []); [|exact H]. pose proof (first_spined_ge (skipn (S L) lines) (S L)). lia. }
    assert (i <> L) by congruence. lia.
  - destruct (Nat.lt_ge_cases L i) as [X|X]; [exact X|exfalso].
    assert (Y : existsb isDataLine (firstn (S L) lines) = true); [|congruence].
    apply existsb_firstn. exists i. split; [lia|exact Hi].
Qed.

Lemma chain_end lines L ms : L = length lines - 1 -> chain lines L ms -> ms = [].
Proof. intros -> C. inversion C; subst; [reflexivity|lia]. Qed.

Lemma chain_tail lines e ms : (B lines e = true /\ D lines e = false \/ e = length lines - 1) ->
  chain lines e ms -> ms = [] \/ (B lines e = true /\ D lines e = false).
Proof. intros [H|H] C; [right; exact H|left; eapply chain_end; eassumption]. Qed.

Lemma chain_head_data lines L L' s e i : L < length lines -> D lines L = false -> L <= L' -> L' < e < length lines ->
  (L' = L \/ B lines L' = true) -> s = repositionStartIndex lines L' -> D lines i = true ->
  (s <= i <= e <-> L' < i <= e).
Proof.
  intros HL HD A1 A2 A4 -> Hi.
  assert (D lines L' = false).
  { destruct A4 as [->|X]; [exact HD|]. destruct (D lines L') eqn:Y; [|reflexivity]. apply D_B in Y. congruence. }
  split; intros [X Y]; (split; [|exact Y]).
  - eapply reposition_before; eauto; lia.
  - apply reposition_after; auto; lia.
Qed.

Lemma chain_cover lines L ms : chain lines L ms -> L < length lines -> D lines L = false ->
  forall i, L < i -> D lines i = true -> exists k, in_measure ms k i.
Proof.
  intros C. induction C as [L E|L L' s e ms A1 A2 A3 A4 A5 A6 A7 A8 A9 IH]; intros HL HD i I Di.
  - rewrite E in Di by exact I. discriminate.
  - destruct (Nat.le_gt_cases i e) as [Q|Q].
    + exists 0, s, e. split; [reflexivity|].
      apply (chain_head_data lines L L' s e i HL HD A1 A2 A4 A7 Di).
      split; [|exact Q]. destruct (Nat.le_gt_cases i L') as [X|X]; [|exact X].
      rewrite A3 in Di by lia. discriminate.
    + destruct (chain_tail _ _ _ A8 A9) as [->|[Be De]].
      * inversion A9; subst. rewrite H in Di by exact Q. discriminate.
      * destruct (IH ltac:(lia) De i Q Di) as (k & s' & e' & K1 & K2). exists (S k), s', e'. split; assumption.
Qed.

Lemma chain_after lines L ms : chain lines L ms -> L < length lines -> D lines L = false ->
  forall k i, D lines i = true -> in_measure ms k i -> L < i.
Proof.
  intros C. induction C as [L E|L L' s e ms A1 A2 A3 A4 A5 A6 A7 A8 A9 IH]; intros HL HD k i Di (s' & e' & K1 & K2).
  - destruct k; discriminate.
  - destruct k as [|k].
    + injection K1 as <- <-. apply (chain_head_data lines L L' s e i HL HD A1 A2 A4 A7 Di) in K2. lia.
    + destruct (chain_tail _ _ _ A8 A9) as [->|[Be De]]; [destruct k; discriminate|].
      assert (e < i); [|lia]. apply (IH ltac:(lia) De k i Di). exists s', e'. split; assumption.
Qed.

Lemma chain_order lines L ms : chain lines L ms -> L < length lines -> D lines L = false ->
  forall k k' i i', D lines i = true -> D lines i' = true -> in_measure ms k i -> in_measure ms k' i' -> k < k' ->
  i < i' /\ exists b, i < b < i' /\ B lines b = true.
Proof.
  intros C. induction C as [L E|L L' s e ms A1 A2 A3 A4 A5 A6 A7 A8 A9 IH]; intros HL HD k k' i i' Di Di' M M' K.
  - destruct M as (s' & e' & K1 & K2). destruct k; discriminate.
  - destruct k' as [|k']; [lia|].
    assert (M1 : in_measure ms k' i') by exact M'.
    destruct (chain_tail _ _ _ A8 A9) as [->|[Be De]].
    { destruct M1 as (s' & e' & K1 & K2). destruct k'; discriminate. }
    destruct k as [|k].
    + destruct M as (s' & e' & K1 & K2). injection K1 as <- <-.
      pose proof (chain_after lines e ms A9 ltac:(lia) De k' i' Di' M1) as Q.
      assert (i <> e) by congruence.
      split; [lia|]. exists e. split; [lia|exact Be].
    + apply (IH ltac:(lia) De k k' i i' Di Di'); [exact M|exact M1|lia].
Qed.

Lemma chain_same lines L ms : chain lines L ms -> L < length lines -> D lines L = false ->
  forall k i i', D lines i = true -> D lines i' = true -> in_measure ms k i -> in_measure ms k i' ->
  forall b, i < b < i' -> B lines b = false.
Proof.
  intros C. induction C as [L E|L L' s e ms A1 A2 A3 A4 A5 A6 A7 A8 A9 IH]; intros HL HD k i i' Di Di' M M' b Hb.
  - destruct M as (s' & e' & K1 & K2). destruct k; discriminate.
  - destruct k as [|k].
    + destruct M as (s1 & e1 & K1 & K2). injection K1 as <- <-.
      destruct M' as (s1 & e1 & K1 & K3). injection K1 as <- <-.
      apply (chain_head_data lines L L' s e i HL HD A1 A2 A4 A7 Di) in K2.
      apply A5. lia.
    + destruct (chain_tail _ _ _ A8 A9) as [->|[Be De]].
      { destruct M as (s' & e' & K1 & K2). destruct k; discriminate. }
      apply (IH ltac:(lia) De k i i' Di Di' M M' b Hb).
Qed.

Lemma chain_nonempty lines L ms : chain lines L ms -> L < length lines -> D lines L = false ->
  forall k, k < length ms -> exists i, D lines i = true /\ in_measure ms k i.
Proof.
  intros C. induction C as [L E|L L' s e ms A1 A2 A3 A4 A5 A6 A7 A8 A9 IH]; intros HL HD k K; [cbn in K; lia|].
  destruct k as [|k].
  - destruct A6 as (j & J & Dj). exists j. split; [exact Dj|]. exists s, e. split; [reflexivity|].
    apply (chain_head_data lines L L' s e j HL HD A1 A2 A4 A7 Dj). exact J.
  - destruct (chain_tail _ _ _ A8 A9) as [->|[Be De]]; [cbn in K; lia|].
    destruct (IH ltac:(lia) De k ltac:(cbn in K; lia)) as (i & Di & M). exists i. split; [exact Di|exact M].
Qed.

(** ** Where the staves start *)

Lemma addTrackEnd_starts t tr : trackStarts (addTrackEnd t tr) = trackStarts tr.
Proof. reflexivity. Qed.

Lemma adjust_token_starts ln dt si i t nxt s s' : t <> S_ "*+" -> last_start_pending (a_tracks s) = false ->
  adjust_token ln dt si i t nxt s = Some s' ->
  trackStarts (a_tracks s') = trackStarts (a_tracks s) /\ isExclusiveInterpretation t = false.
Proof.
  intros N P H. unfold adjust_token in H. pose proof (kind_spec t) as K.
  destruct (kind t) eqn:E.
  - injection H as <-. subst t. split; reflexivity.
  - injection H as <-. subst t. split; reflexivity.
  - subst t. congruence.
  - subst t. destruct nxt as [t'|]; [|discriminate]. destruct (isExchange t'); [|discriminate].
    injection H as <-. split; reflexivity.
  - subst t. injection H as <-. split; reflexivity.
  - rewrite P in H. discriminate.
  - injection H as <-. split; [reflexivity|apply K].
Qed.

Lemma pending_starts tr tr' : trackStarts tr' = trackStarts tr -> last_start_pending tr' = last_start_pending tr.
Proof. intros H. unfold last_start_pending. rewrite H. reflexivity. Qed.

Lemma merge_not_exclusive t : isMerge t = true -> isExclusiveInterpretation t = false.
Proof. intros H. apply isMerge_spec in H. subst t. reflexivity. Qed.

Lemma adjust_loop_starts ln dt si toks : forall i s s', (forall t, In t toks -> t <> S_ "*+") ->
  last_start_pending (a_tracks s) = false ->
  (a_skip s = true -> forall t ts, toks = t :: ts -> isExclusiveInterpretation t = false) ->
  adjust_loop ln dt si toks i s = Some s' ->
  trackStarts (a_tracks s') = trackStarts (a_tracks s) /\ forall t, In t toks -> isExclusiveInterpretation t = false.
Proof.
  induction toks as [|t toks IH]; intros i s s' N P K H.
  - injection H as <-. split; [reflexivity|intros t []].
  - cbn [adjust_loop] in H.
    assert (N' : forall u, In u toks -> u <> S_ "*+") by (intros u U; apply N; right; exact U).
    destruct (a_skip s) eqn:SK.
    + apply IH in H; cbn [a_tracks a_skip]; auto; [|discriminate].
      destruct H as [H1 H2]. split; [exact H1|]. intros u [<-|U]; [eapply K; reflexivity|auto].
    + set (inrun := (0 <? a_merge s) && isMerge t) in H.
      set (mc := if inrun then S (a_merge s) else a_merge s) in H.
      set (last := match toks with [] => true | _ :: _ => false end) in H.
      assert (Tok : forall s1 s2, last_start_pending (a_tracks s1) = false -> trackStarts (a_tracks s1) = trackStarts (a_tracks s) ->
        adjust_token ln dt si i t (hd_error toks) s1 = Some s2 -> adjust_loop ln dt si toks (S i) s2 = Some s' ->
        trackStarts (a_tracks s') = trackStarts (a_tracks s) /\ forall u, In u (t :: toks) -> isExclusiveInterpretation u = false).
      { intros s1 s2 P1 T1 H1 H2. pose proof (adjust_token_starts _ _ _ _ _ _ _ _ (N t (or_introl eq_refl)) P1 H1) as [X Y].
        assert (SKs : a_skip s2 = true -> forall u us, toks = u :: us -> isExclusiveInterpretation u = false).
        { intros Sk u us ->. clear -H1 Sk. unfold adjust_token in H1. destruct (kind t); try (injection H1 as <-; discriminate).
          - cbn [hd_error] in H1. destruct (isExchange u) eqn:E; [|discriminate]. apply isExchange_spec in E. subst u. reflexivity.
          - destruct (last_start_pending (a_tracks s1)); [injection H1 as <-; discriminate|discriminate]. }
        apply IH in H2; auto.
        - destruct H2 as [H2 H3]. split; [congruence|]. intros u [<-|U]; auto.
        - rewrite (pending_starts _ _ X). exact P1. }
      destruct (inrun && negb last) eqn:R1.
      * apply IH in H; cbn [a_tracks a_skip]; auto; [|discriminate].
        destruct H as [H1 H2]. split; [exact H1|]. intros u [<-|U]; [|auto].
        apply andb_true_iff in R1. destruct R1 as [R1 _]. unfold inrun in R1. apply andb_true_iff in R1.
        apply merge_not_exclusive. apply R1.
      * destruct ((0 <? mc) && (negb (isMerge t) || last)) eqn:R2.
        -- destruct (mc =? 1); [discriminate|].
           destruct (getMergedSpineInfo si (if isMerge t then S i - mc else i - mc) (mc - 1)) as [lab|]; [|discriminate].
           destruct (isMerge t) eqn:M.
           ++ apply IH in H; cbn [a_tracks a_skip]; auto; [|discriminate].
              destruct H as [H1 H2]. split; [exact H1|]. intros u [<-|U]; [apply merge_not_exclusive; exact M|auto].
           ++ destruct (adjust_token ln dt si i t (hd_error toks) _) as [s2|] eqn:A in H; [|discriminate].
              eapply Tok; [| |exact A|exact H]; [exact P|reflexivity].
        -- destruct (adjust_token ln dt si i t (hd_error toks) _) as [s2|] eqn:A in H; [|discriminate].
           eapply Tok; [| |exact A|exact H]; [exact P|reflexivity].
Qed.

Lemma spine_lines_starts lines : forall ln st infos fin,
  (forall l t, In l lines -> In t (tokens l) -> t <> S_ "*+") -> last_start_pending (s_tracks st) = false ->
  spine_lines ln lines st = Some (infos, fin) ->
  trackStarts (s_tracks fin) = trackStarts (s_tracks st) /\
  forall l t, In l lines -> isGlobalLine l = false -> In t (tokens l) -> isExclusiveInterpretation t = false.
Proof.
  induction lines as [|l lines IH]; intros ln st infos fin N P H.
  - injection H as <- <-. split; [reflexivity|intros l t []].
  - cbn [spine_lines] in H.
    assert (N' : forall l t, In l lines -> In t (tokens l) -> t <> S_ "*+") by (intros; eapply N; [right|]; eassumption).
    destruct (isGlobalLine l) eqn:G.
    + apply IH in H; auto. destruct H as [H1 H2]. split; [exact H1|].
      intros l' t [<-|I]; [congruence|]. apply H2. exact I.
    + destruct (spine_line ln (tokens l) st) as [st'|] eqn:E; [|discriminate].
      destruct (spine_lines (S ln) lines st') as [[infos' fin']|] eqn:E'; [|discriminate].
      injection H as <- <-.
      assert (X : trackStarts (s_tracks st') = trackStarts (s_tracks st) /\ forall t, In t (tokens l) -> isExclusiveInterpretation t = false).
      { unfold spine_line in E. destruct (negb (length (s_type st) =? length (tokens l))); [discriminate|].
        destruct (existsb isManipulatorToken (tokens l)) eqn:M.
        - unfold adjustSpines in E. destruct (adjust_loop _ _ _ _ _ _) as [a|] eqn:A; [|discriminate].
          injection E as <-. apply adjust_loop_starts in A; cbn [a_tracks a_skip]; auto; try discriminate.
          intros t T. eapply N; [left; reflexivity|exact T].
        - injection E as <-. split; [reflexivity|]. intros t T.
          destruct (isExclusiveInterpretation t) eqn:Y; [|reflexivity].
          exfalso. assert (Z : existsb isManipulatorToken (tokens l) = true); [|congruence].
          apply existsb_exists. exists t. split; [exact T|]. unfold isManipulatorToken, kind.
          repeat match goal with |- context [if ?b then _ else _] => destruct b; try reflexivity end.
          rewrite Y. reflexivity. }
      destruct X as [X1 X2]. apply IH in E'; auto.
      * destruct E' as [H1 H2]. split; [congruence|]. intros l' t [<-|I] G' T; [auto|eapply H2; eassumption].
      * rewrite (pending_starts _ _ X1). exact P.
Qed.

Lemma init_tracks_starts ln toks : forall j tr, last_start_pending tr = false ->
  trackStarts (init_tracks ln j toks tr) = trackStarts tr ++ map (fun k => Some (ln, k)) (seq j (length toks)) /\
  last_start_pending (init_tracks ln j toks tr) = false.
Proof.
  induction toks as [|t toks IH]; intros j tr P.
  - cbn. rewrite app_nil_r. split; [reflexivity|exact P].
  - cbn [init_tracks length seq map].
    assert (X : addToTrackStarts (Some (ln, j)) tr = mkTracks (trackStarts tr ++ [Some (ln, j)]) (trackEnds tr ++ [[]])).
    { unfold addToTrackStarts. rewrite P. reflexivity. }
    rewrite X. destruct (IH (S j) (mkTracks (trackStarts tr ++ [Some (ln, j)]) (trackEnds tr ++ [[]]))) as [A1 A2].
    + unfold last_start_pending. cbn [trackStarts]. rewrite last_last. apply andb_false_r.
    + rewrite A1. split; [cbn [trackStarts]; rewrite <- app_assoc; reflexivity|exact A2].
Qed.

Lemma analyzeSpines_from_split lines : forall ln infos fin, analyzeSpines_from ln lines = Some (infos, fin) ->
  exists pre l post infos', lines = pre ++ l :: post /\ Forall (fun x => isGlobalLine x = true) pre /\ isGlobalLine l = false /\
    spine_lines (S (ln + length pre)) post (init_state (ln + length pre) (tokens l)) = Some (infos', fin).
Proof.
  induction lines as [|l lines IH]; intros ln infos fin H; [discriminate|].
  cbn [analyzeSpines_from] in H. destruct (isGlobalLine l) eqn:G.
  - apply IH in H. destruct H as (pre & l' & post & infos' & E & F & G' & S1).
    exists (l :: pre), l', post, infos'. split; [cbn; rewrite E; reflexivity|]. split; [constructor; assumption|].
    split; [exact G'|]. cbn [length]. replace (ln + S (length pre)) with (S ln + length pre) by lia. exact S1.
  - destruct (isExclusiveLine l) eqn:X; [|discriminate].
    destruct (spine_lines (S ln) lines (init_state ln (tokens l))) as [[infos' fin']|] eqn:E; [|discriminate].
    injection H as <- <-. exists [], l, lines, infos'. cbn [length app]. rewrite Nat.add_0_r.
    split; [reflexivity|]. split; [constructor|]. split; [exact G|exact E].
Qed.

Definition has_staff (lines : list str) : Prop :=
  exists l t, In l lines /\ In t (tokens l) /\ (t = S_ "**kern" \/ t = S_ "**mens").
Definition no_added_spines (lines : list str) : Prop :=
  forall l t, In l lines -> In t (tokens l) -> t <> S_ "*+".
Definition opens_with_interpretation (lines : list str) : Prop :=
  forall l, hd_error (spined lines) = Some l -> hd_error l = Some "*"%char.

Lemma kern_not_global l t : In t (tokens l) -> t = S_ "**kern" \/ t = S_ "**mens" -> isGlobalLine l = false.
Proof.
  intros I H. destruct (isGlobalLine l) eqn:G; [|reflexivity]. exfalso.
  unfold isGlobalLine in G. destruct l as [|c l].
  - cbn in I. destruct I as [<-|[]]. destruct H; discriminate.
  - unfold tokens, createTokensFromLine in I. rewrite G in I. cbn in I. destruct I as [<-|[]].
    destruct H as [H|H]; rewrite H in G; discriminate.
Qed.

Lemma is_staff_type_spec t : is_staff_type t = true <-> t = S_ "**kern" \/ t = S_ "**mens".
Proof. unfold is_staff_type. rewrite orb_true_iff, !str_eqb_eq. reflexivity. Qed.

Lemma nth_app_here {A} (d : A) pre x post : nth (length pre) (pre ++ x :: post) d = x.
Proof. rewrite app_nth2, Nat.sub_diag by lia. reflexivity. Qed.

(** The walk over the measures starts on the opening line. *)
Lemma first_line lines infos fin : analyzeSpines lines = Some (infos, fin) -> has_staff lines -> no_added_spines lines ->
  opens_with_interpretation lines ->
  exists L r, map fst (staffStarts lines (s_tracks fin)) = L :: r /\ L < length lines /\ D lines L = false /\
    (forall i, D lines i = true -> L < i).
Proof.
  intros H HS HN HO. unfold analyzeSpines in H.
  destruct (analyzeSpines_from_split _ _ _ _ H) as (pre & l & post & infos' & E & F & G & R).
  cbn [plus] in R. set (L := length pre) in *.
  assert (P0 : last_start_pending (mkTracks [None] [[]]) = false) by reflexivity.
  destruct (init_tracks_starts L (tokens l) 0 _ P0) as [I1 I2].
  assert (N' : forall l' t, In l' post -> In t (tokens l') -> t <> S_ "*+").
  { intros l' t I. apply HN. rewrite E. apply in_or_app. right. right. exact I. }
  destruct (spine_lines_starts post (S L) (init_state L (tokens l)) infos' fin N' I2 R) as [T X].
  cbn [init_state s_tracks] in T. rewrite I1 in T. cbn [trackStarts app] in T.
  assert (NL : nth L lines [] = l) by (rewrite E; apply nth_app_here).
  assert (Li : L < length lines) by (rewrite E, app_length; cbn; lia).
  assert (SPn : hd_error (spined lines) = Some l).
  { rewrite E. clear -F G. induction pre as [|p pre IH]; cbn [app].
    - rewrite spined_cons by exact G. reflexivity.
    - rewrite spined_cons_global; [apply IH|]; inversion F; assumption. }
  assert (DL : D lines L = false).
  { unfold D. rewrite (nth_map_nth _ _ _ ([] : str)) by exact Li. rewrite NL. unfold isDataLine, isInterpretationLine.
    specialize (HO l SPn). change (S_ "*") with ["*"%char]. rewrite (proj2 (starts_char "*"%char l) HO).
    rewrite orb_true_r. reflexivity. }
  assert (After : forall i, D lines i = true -> L < i).
  { intros i Di. destruct (Nat.lt_trichotomy i L) as [Q|[->|Q]]; [|congruence|exact Q]. exfalso.
    pose proof (data_hasSpines _ _ Di) as Y. rewrite E, app_nth1 in Y by exact Q.
    rewrite Forall_forall in F. unfold hasSpines in Y. rewrite F in Y; [discriminate|]. apply nth_In. exact Q. }
  assert (Staff : exists j, j < length (tokens l) /\ is_staff_type (nth j (tokens l) []) = true).
  { destruct HS as (l0 & t & I & J & K). pose proof (kern_not_global _ _ J K) as G0.
    assert (l0 = l).
    { rewrite E in I. apply in_app_or in I. destruct I as [I|[I|I]]; [|symmetry; exact I|].
      - rewrite Forall_forall in F. rewrite F in G0 by exact I. discriminate.
      - specialize (X l0 t I G0 J). destruct K as [-> | ->]; discriminate. }
    subst l0. destruct (In_nth _ _ [] J) as (j & Lj & Ej). exists j. split; [exact Lj|].
    apply is_staff_type_spec. unfold str in *. rewrite Ej. exact K. }
  unfold staffStarts. rewrite T. cbn [tl]. rewrite map_rev.
  set (ls := flat_map _ _).
  assert (LS : Forall (fun x => x = L) (map fst ls)).
  { apply Forall_forall. intros x Ix. apply in_map_iff in Ix. destruct Ix as (tr & <- & Itr).
    unfold ls in Itr. apply in_flat_map in Itr. destruct Itr as (o & Io & Ho).
    apply in_map_iff in Io. destruct Io as (k & <- & _).
    destruct (is_staff_type (token_text lines (L, k))); [|destruct Ho]. destruct Ho as [<-|[]]. reflexivity. }
  assert (NE : ls <> []).
  { destruct Staff as (j & Lj & Sj). intros Z.
    assert (In (L, j) ls); [|rewrite Z in *; contradiction].
    unfold ls. apply in_flat_map. exists (Some (L, j)). split.
    - apply in_map_iff. exists j. split; [reflexivity|]. apply in_seq. lia.
    - unfold token_text. cbn [fst snd]. rewrite NL, Sj. left. reflexivity. }
  clearbody ls.
  destruct (rev (map fst ls)) as [|a r] eqn:Rv.
  { exfalso. apply NE. apply (f_equal (@length nat)) in Rv. rewrite rev_length, map_length in Rv.
    destruct ls; [reflexivity|discriminate]. }
  assert (a = L).
  { rewrite Forall_forall in LS. apply LS. apply in_rev. rewrite Rv. left. reflexivity. }
  subst a. exists L, r. split; [exact Rv|]. split; [exact Li|]. split; [exact DL|exact After].
Qed.

(** ** Ignored lines *)

(** Line [i] is between a comment [!!ignore] and the next [!!Xignore]. *)
Definition ignored (lines : list str) (i : nat) : Prop :=
  exists j, j < i /\ nth_error lines j = Some (S_ "!!ignore") /\
    forall j', j < j' < i -> nth_error lines j' <> Some (S_ "!!Xignore").

Lemma ignore_from_spec lines : forall st i, i < length lines ->
  (nth i (ignore_from st lines) false = true <->
   ignored lines i \/ (st = true /\ forall j, j < i -> nth_error lines j <> Some (S_ "!!Xignore"))).
Proof.
  induction lines as [|l lines IH]; intros st i L; [cbn in L; lia|].
  cbn [ignore_from]. destruct i as [|i].
  - cbn [nth]. split.
    + intros ->. right. split; [reflexivity|]. intros j J; lia.
    + intros [(j & J & _)|[-> _]]; [lia|reflexivity].
  - cbn [nth]. rewrite IH by (cbn in L; lia).
    assert (XI : S_ "!!ignore" <> S_ "!!Xignore") by discriminate.
    split.
    + intros [(j & J & J1 & J2)|[S1 J]].
      * left. exists (S j). split; [lia|]. split; [exact J1|]. intros [|j'] J'; [lia|]. apply J2. lia.
      * destruct (str_eqb l (S_ "!!ignore")) eqn:E1.
        -- apply str_eqb_eq in E1. subst l. left. exists 0. split; [lia|]. split; [reflexivity|].
           intros [|j'] J'; [lia|]. apply J. lia.
        -- destruct (str_eqb l (S_ "!!Xignore")) eqn:E2; [discriminate|]. right. split; [exact S1|].
           intros [|j] J'; [|apply J; lia]. cbn. intros Q. injection Q as ->. rewrite str_eqb_refl in E2. discriminate.
    + intros [(j & J & J1 & J2)|[S1 J]].
      * destruct j as [|j].
        -- cbn in J1. injection J1 as ->. right. rewrite str_eqb_refl. split; [reflexivity|].
           intros j' J'. apply (J2 (S j')). lia.
        -- left. exists j. split; [lia|]. split; [exact J1|]. intros j' J'. apply (J2 (S j')). lia.
      * right. destruct (str_eqb l (S_ "!!ignore")); split; try reflexivity.
        -- intros j J'. apply (J (S j)). lia.
        -- destruct (str_eqb l (S_ "!!Xignore")) eqn:E2; [|exact S1].
           apply str_eqb_eq in E2. subst l. exfalso. apply (J 0); [lia|reflexivity].
        -- intros j J'. apply (J (S j)). lia.
Qed.

Lemma ignoreLine_spec lines i : i < length lines -> (nth i (ignoreLine lines) false = true <-> ignored lines i).
Proof. intros L. unfold ignoreLine. rewrite ignore_from_spec by exact L. split; [intros [H|[H _]]; [exact H|discriminate]|auto]. Qed.

Lemma ignored_in lines i : ignored lines i -> In (S_ "!!ignore") lines.
Proof. intros (j & _ & J & _). eapply nth_error_In. exact J. Qed.

Lemma filter_all {A} (f : A -> bool) l : (forall x, In x l -> f x = true) -> filter f l = l.
Proof.
  induction l as [|x l IH]; intros H; [reflexivity|]. cbn. rewrite H by (left; reflexivity). f_equal.
  apply IH. intros y Y. apply H. right. exact Y.
Qed.

Lemma no_ignore lines : ~ In (S_ "!!ignore") lines -> forall i, nth i (ignoreLine lines) false = false.
Proof.
  intros N i. destruct (nth i (ignoreLine lines) false) eqn:E; [|reflexivity]. exfalso.
  destruct (Nat.lt_ge_cases i (length lines)) as [L|L].
  - apply N. eapply ignored_in. apply ignoreLine_spec; eassumption.
  - rewrite nth_overflow in E; [discriminate|].
    assert (X : forall ls st, length (ignore_from st ls) = length ls).
    { induction ls; intros; cbn; [reflexivity|]. f_equal. apply IHls. }
    unfold ignoreLine. rewrite X. exact L.
Qed.

(** The first line of a measure is its barline, once there is data before it. *)
Lemma chain_start lines L0 L ms : chain lines L ms -> (L = L0 \/ B lines L = true) -> L < length lines -> D lines L = false ->
  forall k s e i, nth_error ms k = Some (s, e) -> D lines i = true -> s <= i <= e ->
  exists L', (L' = L0 \/ B lines L' = true) /\ L' < i <= e /\ s = repositionStartIndex lines L' /\
    (forall j, L' < j < e -> B lines j = false).
Proof.
  intros C. induction C as [L E|L L' s e ms A1 A2 A3 A4 A5 A6 A7 A8 A9 IH]; intros H0 HL HD k s1 e1 i K Di Hi.
  - destruct k; discriminate.
  - destruct k as [|k].
    + injection K as <- <-. apply (chain_head_data lines L L' s e i HL HD A1 A2 A4 A7 Di) in Hi.
      exists L'. split; [destruct A4 as [->|]; auto|]. split; [exact Hi|]. split; [exact A7|exact A5].
    + destruct (chain_tail _ _ _ A8 A9) as [->|[Be De]]; [destruct k; discriminate|].
      apply (IH (or_intror Be) ltac:(lia) De k s1 e1 i K Di Hi).
Qed.

Lemma barline_nonempty lines b : B lines b = true -> nth b lines [] <> [].
Proof.
  intros H. pose proof (B_lt _ _ H) as L. unfold B in H. rewrite (nth_map_nth _ _ _ ([] : str)) in H by exact L.
  destruct (nth b lines []); [discriminate|]. discriminate.
Qed.

(** A test for acceptance, for the examples. *)
Definition accepted_b (lines : list str) : bool :=
  match analyzeSpines lines with
  | Some (infos, _) =>
      match analyzeLinks lines with
      | Fine _ => forallb (fun l => match analyzeTracks l with Some _ => true | None => false end) infos
      | _ => false
      end
  | None => false
  end.
Lemma accepted_check lines : accepted_b lines = true -> accepted lines.
Proof.
  unfold accepted_b, accepted. destruct (analyzeSpines lines) as [[infos fin]|]; [|discriminate].
  destruct (analyzeLinks lines) as [g| |]; try discriminate. intros H.
  exists infos, fin, g. split; [reflexivity|]. split; [reflexivity|]. apply Forall_forall. intros l I.
  rewrite forallb_forall in H. specialize (H l I). destruct (analyzeTracks l); [discriminate|discriminate].
Qed.

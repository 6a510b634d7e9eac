(** Property theorems C92 and C93: the measures of an imported Humdrum file. *)
From Verif Require Import PyStr PyStrProofs LayoutModel TextModel SpineModel SpineProofs ImportModel ImportProofs.
From Coq Require Import Lia.

(** A measure list without its ignored measures, and the chain behind it. *)
Lemma imported_chain lines ms : importedMeasures lines = Some ms -> has_staff lines -> no_added_spines lines ->
  opens_with_interpretation lines ->
  exists L ms0, L < length lines /\ D lines L = false /\ (forall i, D lines i = true -> L < i) /\
    chain lines L ms0 /\ ms = filter (fun k => negb (nth (fst k) (ignoreLine lines) false)) ms0.
Proof.
  intros H HS HN HO. unfold importedMeasures in H.
  destruct (analyzeSpines lines) as [[infos fin]|] eqn:A; [|discriminate].
  destruct (first_line lines infos fin A HS HN HO) as (L & r & F & HL & HD & HA).
  destruct (staffStarts lines (s_tracks fin)) as [|t ts] eqn:E; [discriminate|].
  injection F as F1 F2. injection H as <-. rewrite F1.
  exists L, (measure_loop (length lines) lines L). split; [exact HL|]. split; [exact HD|]. split; [exact HA|].
  split; [|reflexivity]. apply loop_chain; lia.
Qed.

(** C92.  In a file that opens no spine later on and ignores nothing, every data
    line is in exactly one measure; two data lines share a measure exactly if no
    barline stands between them; measures come in order and none is without
    data. *)
Theorem C92_one_measure_partial : forall lines ms,
  importedMeasures lines = Some ms -> has_staff lines -> opens_with_interpretation lines ->
  no_added_spines lines -> ~ In (S_ "!!ignore") lines ->
  (forall i, data_line lines i -> exists k, in_measure ms k i /\ forall k', in_measure ms k' i -> k' = k) /\
  (forall i j k k', i < j -> data_line lines i -> data_line lines j -> in_measure ms k i -> in_measure ms k' j ->
     k <= k' /\ (k = k' <-> ~ exists b, i < b < j /\ bar_line lines b)) /\
  (forall k, k < length ms -> exists i, data_line lines i /\ in_measure ms k i).
Proof.
  intros lines ms H HS HO HN HI. destruct (imported_chain lines ms H HS HN HO) as (L & ms0 & HL & HD & HA & C & E).
  rewrite filter_all in E by (intros; rewrite no_ignore by exact HI; reflexivity). subst ms0.
  assert (Eq : forall i k k', D lines i = true -> in_measure ms k i -> in_measure ms k' i -> k' = k).
  { intros i k k' Di M M'. destruct (Nat.lt_trichotomy k k') as [Q|[Q|Q]]; [|symmetry; exact Q|].
    - pose proof (chain_order _ _ _ C HL HD k k' i i Di Di M M' Q) as [X _]; lia.
    - pose proof (chain_order _ _ _ C HL HD k' k i i Di Di M' M Q) as [X _]; lia. }
  split; [|split].
  - intros i Hi. apply isDataLine_spec in Hi. destruct (chain_cover _ _ _ C HL HD i (HA i Hi) Hi) as (k & M).
    exists k. split; [exact M|]. intros k' M'. exact (Eq i k k' Hi M M').
  - intros i j k k' Q Hi Hj M M'. apply isDataLine_spec in Hi. apply isDataLine_spec in Hj.
    assert (K : k <= k').
    { destruct (Nat.le_gt_cases k k') as [X|X]; [exact X|].
      pose proof (chain_order _ _ _ C HL HD k' k j i Hj Hi M' M X) as [Y _]; lia. }
    split; [exact K|]. split.
    + intros <- (b & Hb & BL). apply isBarlineLine_spec in BL.
      pose proof (chain_same _ _ _ C HL HD k i j Hi Hj M M' b Hb) as X. unfold B in X. congruence.
    + intros NB. destruct (Nat.eq_dec k k') as [X|X]; [exact X|].
      exfalso. apply NB. destruct (chain_order _ _ _ C HL HD k k' i j Hi Hj M M' ltac:(lia)) as (_ & b & Hb & BL).
      exists b. split; [exact Hb|]. apply isBarlineLine_spec. exact BL.
  - intros k K. destruct (chain_nonempty _ _ _ C HL HD k K) as (i & Di & M). exists i. split; [|exact M].
    apply isDataLine_spec. exact Di.
Qed.
Print Assumptions C92_one_measure_partial.

(** The texts of a file, for the examples. *)
Definition T (l : list str) : str := join [tab] l.

Example C92_nonvacuous :
  let f := [S_ "!!!COM: x"; T [S_ "**kern"; S_ "**kern"]; T [S_ "*M3/4"; S_ "*M3/4"]; T [S_ "=1"; S_ "=1"];
            T [S_ "4c"; S_ "2.e"]; T [S_ "2d"; S_ "."]; T [S_ "=2"; S_ "=2"]; T [S_ "2.f"; S_ "2.g"];
            T [S_ "=="; S_ "=="]; T [S_ "*-"; S_ "*-"]] in
  importedMeasures f = Some [(0, 6); (6, 8)] /\ has_staff f /\ opens_with_interpretation f /\ no_added_spines f /\
  ~ In (S_ "!!ignore") f /\ data_line f 5 /\ data_line f 7.
Proof.
  cbv zeta. split; [vm_compute; reflexivity|]. split; [|split; [|split; [|split; [|split]]]].
  - exists (T [S_ "**kern"; S_ "**kern"]), (S_ "**kern"). split; [right; left; reflexivity|]. split; [vm_compute; auto|auto].
  - intros l. vm_compute. intros H. injection H as <-. reflexivity.
  - intros l t H H'.
    assert (X : forallb (fun l => forallb (fun t => negb (str_eqb t (S_ "*+"))) (tokens l))
      [S_ "!!!COM: x"; T [S_ "**kern"; S_ "**kern"]; T [S_ "*M3/4"; S_ "*M3/4"]; T [S_ "=1"; S_ "=1"];
            T [S_ "4c"; S_ "2.e"]; T [S_ "2d"; S_ "."]; T [S_ "=2"; S_ "=2"]; T [S_ "2.f"; S_ "2.g"];
            T [S_ "=="; S_ "=="]; T [S_ "*-"; S_ "*-"]] = true) by (vm_compute; reflexivity).
    rewrite forallb_forall in X. specialize (X l H). rewrite forallb_forall in X. specialize (X t H').
    intros ->. rewrite str_eqb_refl in X. discriminate.
  - vm_compute. intros H. repeat destruct H as [H|H]; try discriminate; exact H.
  - apply isDataLine_spec. vm_compute. reflexivity.
  - apply isDataLine_spec. vm_compute. reflexivity.
Qed.

(** A staff that is opened later, to the right of the others, comes first in the
    list of staves, and everything above its opening is left out. *)
Theorem C92_refuted : exists lines ms i,
  accepted lines /\ importedMeasures lines = Some ms /\ has_staff lines /\ opens_with_interpretation lines /\
  ~ In (S_ "!!ignore") lines /\ data_line lines i /\ forall k, ~ in_measure ms k i.
Proof.
  exists [T [S_ "**kern"]; T [S_ "=1"]; T [S_ "1c"]; T [S_ "=2"]; T [S_ "*+"]; T [S_ "*"; S_ "**kern"];
          T [S_ "1d"; S_ "1e"]; T [S_ "=="; S_ "=="]; T [S_ "*-"; S_ "*-"]], [(5, 7)], 2.
  split; [|split; [|split; [|split; [|split; [|split]]]]].
  - apply accepted_check. vm_compute. reflexivity.
  - vm_compute. reflexivity.
  - exists (T [S_ "**kern"]), (S_ "**kern"). split; [left; reflexivity|]. split; [vm_compute; auto|auto].
  - intros l. vm_compute. intros H. injection H as <-. reflexivity.
  - vm_compute. intros H. repeat destruct H as [H|H]; try discriminate; exact H.
  - apply isDataLine_spec. vm_compute. reflexivity.
  - intros k (s & e & K & Hi). destruct k as [|[|k]]; try discriminate. injection K as <- <-. lia.
Qed.
Print Assumptions C92_refuted.

(** C93.  A measure that has data before it is imported exactly if its barline is
    not between a comment [!!ignore] and the next [!!Xignore]. *)
Theorem C93_ignore_partial : forall lines ms i b,
  importedMeasures lines = Some ms -> has_staff lines -> opens_with_interpretation lines -> no_added_spines lines ->
  data_line lines i -> bar_line lines b -> b < i -> (forall j, b < j < i -> ~ bar_line lines j) ->
  (exists d, d < b /\ data_line lines d) ->
  ((exists k, in_measure ms k i) <-> ~ ignored lines b).
Proof.
  intros lines ms i b H HS HO HN Hi Hb Bi NB (d & Db & Hd).
  destruct (imported_chain lines ms H HS HN HO) as (L & ms0 & HL & HD & HA & C & E).
  apply isDataLine_spec in Hi. apply isDataLine_spec in Hd. apply isBarlineLine_spec in Hb.
  assert (Bb : B lines b = true) by exact Hb.
  assert (Lb : b < length lines) by (apply B_lt; exact Bb).
  assert (Start : forall s e, In (s, e) ms0 -> s <= i <= e -> s = b).
  { intros s e I Q. apply In_nth_error in I. destruct I as (k & K).
    destruct (chain_start lines L L ms0 C (or_introl eq_refl) HL HD k s e i K Hi Q) as (L' & S1 & S2 & S3 & S4).
    assert (L' = b).
    { destruct (Nat.lt_trichotomy L' b) as [X|[X|X]]; [|exact X|].
      - rewrite S4 in Bb by lia. discriminate.
      - destruct S1 as [->|S1].
        + pose proof (HA d Hd). lia.
        + exfalso. apply (NB L'); [lia|]. apply isBarlineLine_spec. exact S1. }
    subst L'. rewrite S3. unfold repositionStartIndex.
    replace (existsb isDataLine (firstn (S b) lines)) with true.
    2:{ symmetry. apply existsb_firstn. exists d. split; [lia|exact Hd]. }
    pose proof (barline_nonempty _ _ Bb). destruct (nth b lines []); [congruence|reflexivity]. }
  rewrite <- (ignoreLine_spec lines b Lb). split.
  - intros (k & s & e & K & Q) Ig. apply nth_error_In in K. rewrite E in K. apply filter_In in K. destruct K as [K1 K2].
    rewrite (Start s e K1 Q) in K2. cbn [fst] in K2. rewrite Ig in K2. discriminate.
  - intros Ig. destruct (chain_cover _ _ _ C HL HD i (HA i Hi) Hi) as (k & s & e & K & Q).
    apply nth_error_In in K. pose proof (Start s e K Q) as ->.
    assert (I : In (b, e) ms).
    { rewrite E. apply filter_In. split; [exact K|]. cbn [fst]. apply not_true_is_false in Ig. rewrite Ig. reflexivity. }
    apply In_nth_error in I. destruct I as (k' & K'). exists k', b, e. split; assumption.
Qed.
Print Assumptions C93_ignore_partial.

Example C93_nonvacuous :
  importedMeasures [S_ "**kern"; S_ "=1"; S_ "1c"; S_ "!!ignore"; S_ "=2"; S_ "1d"; S_ "!!Xignore"; S_ "=3"; S_ "1e"; S_ "=="; S_ "*-"]
  = Some [(0, 4); (7, 9)].
Proof. vm_compute. reflexivity. Qed.

(** The first measure is always imported, also when its barline is ignored. *)
Theorem C93_refuted : exists lines ms i b,
  accepted lines /\ importedMeasures lines = Some ms /\ has_staff lines /\ opens_with_interpretation lines /\
  data_line lines i /\ bar_line lines b /\ b < i /\ (forall j, b < j < i -> ~ bar_line lines j) /\
  ignored lines b /\ exists k, in_measure ms k i.
Proof.
  exists [S_ "**kern"; S_ "!!ignore"; S_ "=1"; S_ "1c"; S_ "!!Xignore"; S_ "=2"; S_ "1d"; S_ "=="; S_ "*-"], [(0, 5); (5, 7)], 3, 2.
  split; [|split; [|split; [|split; [|split; [|split; [|split; [|split; [|split]]]]]]]].
  - apply accepted_check. vm_compute. reflexivity.
  - vm_compute. reflexivity.
  - exists (S_ "**kern"), (S_ "**kern"). split; [left; reflexivity|]. split; [vm_compute; auto|auto].
  - intros l. vm_compute. intros H. injection H as <-. reflexivity.
  - apply isDataLine_spec. vm_compute. reflexivity.
  - apply isBarlineLine_spec. vm_compute. reflexivity.
  - lia.
  - intros j J. lia.
  - exists 1. split; [lia|]. split; [reflexivity|]. intros j' J'. lia.
  - exists 0, 0, 5. split; [reflexivity|lia].
Qed.
Print Assumptions C93_refuted.

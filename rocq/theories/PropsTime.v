(** Property theorems C20-C25: rhythm analysis. *)
From Verif Require Import PyStr PyStrProofs RecipModel LayoutModel TextModel SpineModel SpineProofs LinkProofs.
From Verif Require Import RhythmModel RhythmProofs RhythmProofs2 RhythmProofs3 RhythmProofs4 RhythmProofs5.
From Coq Require Import QArith.
Local Close Scope Q_scope.

Definition TL (l : list str) : str := join [tab] l.

(** What a run of the model on a text gives, for the examples. *)
Definition run (lines : list str) (check : rfile -> graph -> list Q -> list Q -> bool) : bool :=
  match analyzeSpines lines, analyzeLinks lines with
  | Some (infos, fin), Fine g =>
      let f := rhythm_view lines infos fin g in
      match read_rhythm lines with
      | Some (RhythmOk starts durs) => check f g starts durs
      | _ => false
      end
  | _, _ => false
  end.
Lemma run_spec lines check : run lines check = true ->
  exists infos fin g starts durs, analyzeSpines lines = Some (infos, fin) /\ analyzeLinks lines = Fine g /\
    read_rhythm lines = Some (RhythmOk starts durs) /\ check (rhythm_view lines infos fin g) g starts durs = true.
Proof.
  unfold run. destruct (analyzeSpines lines) as [[infos fin]|]; [|discriminate].
  destruct (analyzeLinks lines) as [g| |]; try discriminate.
  destruct (read_rhythm lines) as [[starts durs| |]|]; try discriminate.
  intros H. exists infos, fin, g, starts, durs. auto.
Qed.
Lemma read_rhythm_analyze lines infos fin g r :
  analyzeSpines lines = Some (infos, fin) -> analyzeLinks lines = Fine g -> read_rhythm lines = Some r ->
  analyzeRhythm (rhythm_view lines infos fin g) = r.
Proof.
  intros A B. unfold read_rhythm. rewrite A, B. destruct (durations_fine _ _); [|discriminate]. intros [= H]. exact H.
Qed.

(** ** C20 *)

(** The analysis always comes to an end. *)
Theorem C20_analysis_terminates : forall lines, read_rhythm lines <> Some RhythmLoop.
Proof.
  intros lines H. unfold read_rhythm in H. destruct (analyzeSpines lines) as [[infos fin]|] eqn:A; [|discriminate].
  destruct (analyzeLinks lines) as [g| |] eqn:B; try discriminate.
  destruct (durations_fine _ _); [|discriminate]. injection H as H. unfold analyzeRhythm in H.
  pose proof (walk_result_total _ (view_forward lines infos fin g B)) as W.
  destruct W as (st & W). rewrite W in H.
  destruct (negb (rs_valid st)); [discriminate|]. destruct (analyzeNullLineRhythms _ _); discriminate.
Qed.
Print Assumptions C20_analysis_terminates.

(** Full statement: if the analysis accepts a file then along every path of
    linked tokens, a token with a duration starts at the start of the token with
    a duration before it plus that duration.  False where sub-spines merge: the
    sub-spine that arrives second is not compared.  Here the second sub-spine
    holds a whole note (1d) and the first two quarter notes; 4f is at 2, not at 4. *)
Definition c20_merge : list str :=
  [S_ "**kern"; S_ "*^"; TL [S_ "4c"; S_ "1d"]; TL [S_ "4e"; S_ "."]; TL [S_ "*v"; S_ "*v"]; S_ "4f"; S_ "*-"].
Theorem C20_start_times_refuted : exists lines infos fin g starts durs p n m u,
  analyzeSpines lines = Some (infos, fin) /\ analyzeLinks lines = Fine g /\
  read_rhythm lines = Some (RhythmOk starts durs) /\
  let f := rhythm_view lines infos fin g in
  In n (nextTokens g p) /\ In m (nextTokens g n) /\ In u (nextTokens g m) /\
  (0 <= rf_dur f p)%Q /\ (rf_dur f n < 0)%Q /\ (rf_dur f m < 0)%Q /\ (0 <= rf_dur f u)%Q /\
  ~ (nth (fst u) starts (-1) == nth (fst p) starts (-1) + rf_dur f p)%Q.
Proof.
  set (check := fun (f : rfile) (g : graph) (starts durs : list Q) =>
    existsb (ref_eqb (3, 1)) (nextTokens g (2, 1)) && existsb (ref_eqb (4, 1)) (nextTokens g (3, 1)) &&
    existsb (ref_eqb (5, 0)) (nextTokens g (4, 1)) && Qle_bool 0 (rf_dur f (2, 1)) && neg_q (rf_dur f (3, 1)) &&
    neg_q (rf_dur f (4, 1)) && Qle_bool 0 (rf_dur f (5, 0)) &&
    negb (Qeq_bool (nth 5 starts (-1)%Q) (Qplus (nth 2 starts (-1)%Q) (rf_dur f (2, 1))))).
  assert (R : run c20_merge check = true) by (vm_compute; reflexivity).
  destruct (run_spec _ _ R) as (infos & fin & g & starts & durs & A & B & C & D).
  exists c20_merge, infos, fin, g, starts, durs, (2, 1), (3, 1), (4, 1), (5, 0).
  split; [exact A|]. split; [exact B|]. split; [exact C|]. cbv zeta. unfold check in D. rewrite !andb_true_iff in D.
  destruct D as (((((((D1 & D2) & D3) & D4) & D5) & D6) & D7) & D8).
  assert (E : forall x l, existsb (ref_eqb x) l = true -> In x l).
  { intros x l H. apply existsb_exists in H. destruct H as (y & Hy & E). apply ref_eqb_eq in E. subst y. exact Hy. }
  split; [apply E; exact D1|]. split; [apply E; exact D2|]. split; [apply E; exact D3|].
  split; [apply Qle_bool_iff; exact D4|]. split; [apply neg_q_true; exact D5|]. split; [apply neg_q_true; exact D6|].
  split; [apply Qle_bool_iff; exact D7|]. intros X. apply Qeq_bool_iff in X. cbn [fst] in X. rewrite X in D8. discriminate.
Qed.
Print Assumptions C20_start_times_refuted.

(** Proved: every file has a clock, zero at the starts of the rhythmic spines,
    that advances by durations along at least one link into every token, and
    every token with a duration starts when the clock says; so start times add
    up along every path whose later tokens have one predecessor.  Missing:
    paths through merges (false, above), files in which spines are added
    ([*+]), lines that mix terminators and data. *)
Theorem C20_clock_partial : forall lines infos fin g starts durs,
  analyzeSpines lines = Some (infos, fin) -> analyzeLinks lines = Fine g ->
  read_rhythm lines = Some (RhythmOk starts durs) ->
  no_added_spines lines ->
  (forall l u, In l lines -> In (S_ "*-") (tokens l) -> In u (tokens l) -> isDataToken u = false) ->
  let f := rhythm_view lines infos fin g in
  exists clock : tokref -> Q,
    (forall t, In t (rhythmic_starts f) -> (clock t == 0)%Q) /\
    (forall t, reached f (rhythmic_starts f) t -> ~ In t (rhythmic_starts f) ->
       exists p, reached f (rhythmic_starts f) p /\ In t (nextTokens g p) /\
         (clock t == clock p + Qmax 0 (rf_dur f p))%Q) /\
    (forall t, reached f (rhythmic_starts f) t -> (0 <= rf_dur f t)%Q -> (nth (fst t) starts (-1) == clock t)%Q).
Proof.
  intros lines infos fin g starts durs A B C D E. apply (text_clock lines infos fin g A B D E starts durs).
  apply (read_rhythm_analyze _ _ _ _ _ A B C).
Qed.
Print Assumptions C20_clock_partial.

Theorem C20_start_times_partial : forall lines infos fin g starts durs,
  analyzeSpines lines = Some (infos, fin) -> analyzeLinks lines = Fine g ->
  read_rhythm lines = Some (RhythmOk starts durs) ->
  no_added_spines lines ->
  (forall l u, In l lines -> In (S_ "*-") (tokens l) -> In u (tokens l) -> isDataToken u = false) ->
  let f := rhythm_view lines infos fin g in
  forall t l u, reached f (rhythmic_starts f) t -> path g t l u -> (0 <= rf_dur f u)%Q ->
    ((0 <= rf_dur f t)%Q ->
       (nth (fst u) starts (-1) == nth (fst t) starts (-1) + qsum (map (fun x => Qmax 0 (rf_dur f x)) l))%Q) /\
    (In t (rhythmic_starts f) ->
       (nth (fst u) starts (-1) == qsum (map (fun x => Qmax 0 (rf_dur f x)) l))%Q).
Proof.
  intros lines infos fin g starts durs A B C D E. apply (text_paths lines infos fin g starts durs A B D E).
  apply (read_rhythm_analyze _ _ _ _ _ A B C).
Qed.
Print Assumptions C20_start_times_partial.

(** A file with a split and a merge, null tokens, a barline, a comment and a
    spine without rhythm. *)
Definition c20_file : list str :=
  [S_ "!!!COM: Bach"; TL [S_ "**kern"; S_ "**dynam"; S_ "**kern"]; TL [S_ "*M4/4"; S_ "*"; S_ "*M4/4"];
   TL [S_ "4c"; S_ "p"; S_ "8d"]; TL [S_ "."; S_ "."; S_ "8.e"]; TL [S_ "*^"; S_ "*"; S_ "*"];
   TL [S_ "4cc"; S_ "8a"; S_ "."; S_ "."]; TL [S_ "."; S_ "."; S_ "f"; S_ "16f"]; TL [S_ "."; S_ "8b"; S_ "."; S_ "8g"];
   TL [S_ "="; S_ "="; S_ "="; S_ "="]; TL [S_ "*v"; S_ "*v"; S_ "*"; S_ "*"];
   TL [S_ "4g"; S_ "."; S_ "4a"]; TL [S_ "*-"; S_ "*-"; S_ "*-"]].

Example C20_nonvacuous :
  run c20_file (fun f g starts durs =>
    Qeq_bool (nth 3 starts (-1)%Q) 0 && Qeq_bool (nth 4 starts (-1)%Q) (1 # 2) && Qeq_bool (nth 6 starts (-1)%Q) 1 &&
    Qeq_bool (nth 7 starts (-1)%Q) (5 # 4) && Qeq_bool (nth 8 starts (-1)%Q) (3 # 2) && Qeq_bool (nth 11 starts (-1)%Q) 2 &&
    Qeq_bool (nth 12 starts (-1)%Q) 3 && Qeq_bool (scoreDuration starts durs) 3) = true /\
  no_added_spines c20_file /\
  (forall l u, In l c20_file -> In (S_ "*-") (tokens l) -> In u (tokens l) -> isDataToken u = false).
Proof.
  split; [vm_compute; reflexivity|]. split.
  - intros l H X.
    assert (E : forallb (fun l => negb (existsb (str_eqb (S_ "*+")) (tokens l))) (spined c20_file) = true) by (vm_compute; reflexivity).
    apply (proj1 (forallb_forall _ _)) with (x := l) in E; [|exact H]. apply negb_true_iff in E.
    assert (Y : existsb (str_eqb (S_ "*+")) (tokens l) = true) by (apply existsb_exists; exists (S_ "*+"); split; [exact X|reflexivity]).
    congruence.
  - intros l u H X U.
    assert (E : forallb (fun l => negb (existsb (str_eqb (S_ "*-")) (tokens l)) || forallb (fun u => negb (isDataToken u)) (tokens l)) c20_file = true)
      by (vm_compute; reflexivity).
    apply (proj1 (forallb_forall _ _)) with (x := l) in E; [|exact H]. apply orb_true_iff in E. destruct E as [E|E].
    + apply negb_true_iff in E.
      assert (Y : existsb (str_eqb (S_ "*-")) (tokens l) = true) by (apply existsb_exists; exists (S_ "*-"); split; [exact X|reflexivity]).
      congruence.
    + apply (proj1 (forallb_forall _ _)) with (x := u) in E; [|exact U]. apply negb_true_iff in E. exact E.
Qed.

(** ** C21 *)

(** Full statement: for every accepted file, every line's start is the sum of the
    durations of the lines before it.  False: start times need not be in order
    (the file below has starts 0, 1, 1/2), and a negative difference becomes the
    duration zero. *)
Definition c21_file : list str :=
  [TL [S_ "**kern"; S_ "**kern"]; TL [S_ "4c"; S_ "8e"]; TL [S_ "4d"; S_ "."]; TL [S_ "."; S_ "8f"]; TL [S_ "*-"; S_ "*-"]].
Theorem C21_sums_refuted : exists lines starts durs k,
  read_rhythm lines = Some (RhythmOk starts durs) /\ k < length starts /\
  ~ (nth k starts (-1) == nth 0 starts (-1) + qsum (firstn k durs))%Q.
Proof.
  assert (R : run c21_file (fun f g starts durs => (3 <? length starts) &&
    negb (Qeq_bool (nth 3 starts (-1)%Q) (nth 0 starts (-1) + qsum (firstn 3%nat durs))%Q)) = true) by (vm_compute; reflexivity).
  destruct (run_spec _ _ R) as (infos & fin & g & starts & durs & _ & _ & C & D).
  exists c21_file, starts, durs, 3. split; [exact C|]. rewrite !andb_true_iff in D. destruct D as [D1 D2].
  split; [apply Nat.ltb_lt; exact D1|]. intros X. apply Qeq_bool_iff in X. rewrite X in D2. discriminate.
Qed.
Print Assumptions C21_sums_refuted.

(** Proved when the start times are in order (missing: the files above); no
    condition for files whose first spine is **recip. *)
Theorem C21_sums_partial : forall lines starts durs,
  read_rhythm lines = Some (RhythmOk starts durs) ->
  length durs = length starts /\ Forall (fun d => 0 <= d)%Q durs /\
  (in_order starts -> forall k, k < length starts ->
     (nth k starts (-1) == nth 0 starts (-1) + qsum (firstn k durs))%Q) /\
  (in_order starts -> (scoreDuration starts durs == nth 0 starts 0 + qsum durs)%Q).
Proof.
  intros lines starts durs H. unfold read_rhythm in H. destruct (analyzeSpines lines) as [[infos fin]|]; [|discriminate].
  destruct (analyzeLinks lines) as [g| |]; try discriminate. destruct (durations_fine _ _); [|discriminate].
  injection H as H. unfold analyzeRhythm in H. destruct (walk_result _) as [st|]; [|discriminate].
  destruct (negb (rs_valid st)); [discriminate|]. destruct (analyzeNullLineRhythms _ _) as [s|]; [|discriminate].
  injection H as H1 H2. rewrite H1 in H2. subst durs. split; [apply assign_length|]. split; [apply assign_nonneg|].
  destruct starts as [|a l].
  - split; [intros _ k K; cbn in K; lia|]. intros _. reflexivity.
  - split; [intros O k K; apply assign_sums; assumption|]. intros O. apply score_sum. exact O.
Qed.
Print Assumptions C21_sums_partial.

Theorem C21_recip_sums : forall durs k, k < length durs ->
  let r := recip_starts 0 durs in
  (fst (nth k r (0, 0)) == qsum (map snd (firstn k r)))%Q /\ (0 <= snd (nth k r (0, 0)))%Q.
Proof.
  intros durs k K r. split.
  - unfold r. rewrite (recip_starts_sum durs 0%Q k K). ring.
  - unfold r. clear r. enough (G : forall durs t k, (0 <= snd (nth k (recip_starts t durs) (0, 0)))%Q) by apply G.
    clear. induction durs as [|d ds IH]; intros t k; cbn [recip_starts]; [destruct k; apply Qle_refl|].
    destruct k as [|k]; cbn [nth snd]; [|apply IH]. unfold clamp. destruct (Qle_bool 0 d) eqn:E; [apply Qle_bool_iff; exact E|apply Qle_refl].
Qed.
Print Assumptions C21_recip_sums.

Example C21_nonvacuous : run c20_file (fun f g starts durs =>
    forallb (fun k => Qle_bool (nth k starts (-1)%Q) (nth (S k) starts 100%Q)) (seq 0 (length starts)) &&
    Qeq_bool (scoreDuration starts durs) 3) = true.
Proof. vm_compute. reflexivity. Qed.

(** ** C22 *)
(** [pre ++ (true, d0) :: inside ++ post]: the lines (is it a barline, its
    duration), a measure being the lines [inside] after a barline and up to the
    next barline or the end. *)
Theorem C22_measure : forall pre d0 inside post, no_bar inside -> closed post ->
  let l := pre ++ (true, d0) :: inside ++ post in
  let m := qsum (map snd inside) in
  (forall k, k < length inside ->
     (nth (S (length pre) + k) (fst (analyzeMeter l)) (-1) == qsum (map snd (firstn k inside)) /\
      nth (S (length pre) + k) (fst (analyzeMeter l)) (-1) + nth (S (length pre) + k) (snd (analyzeMeter l)) (-1) == m)%Q) /\
  (nth (length pre) (snd (analyzeMeter l)) (-1) == m + d0)%Q.
Proof. intros pre d0 inside post. apply (measure_sums pre true d0 inside post eq_refl). Qed.
Print Assumptions C22_measure.

(** The lines before the first barline. *)
Theorem C22_pickup : forall inside post, no_bar inside -> closed post -> forall k, k < length inside ->
  let l := inside ++ post in
  (nth k (fst (analyzeMeter l)) (-1) == qsum (map snd (firstn k inside)) /\
   nth k (fst (analyzeMeter l)) (-1) + nth k (snd (analyzeMeter l)) (-1) == qsum (map snd inside))%Q.
Proof.
  intros inside post N C k K l.
  assert (F : (nth k (fst (analyzeMeter l)) (-1) == qsum (map snd (firstn k inside)))%Q).
  { unfold analyzeMeter, l. cbn [fst]. rewrite from_barline_inside by assumption. ring. }
  split; [exact F|]. rewrite F. unfold analyzeMeter, l. cbn [snd]. rewrite to_barline_inside by assumption.
  rewrite <- qsum_app, <- map_app, firstn_skipn. reflexivity.
Qed.
Print Assumptions C22_pickup.

Example C22_nonvacuous :
  no_bar [(false, 1%Q); (false, (1 # 2)%Q); (false, (5 # 2)%Q)] /\ closed [(true, 0%Q); (false, 1%Q)] /\
  map (fun q => (qnum q, qden q)) (snd (analyzeMeter [(false, 1%Q); (true, 0%Q); (false, 1%Q); (false, (1 # 2)%Q); (false, (5 # 2)%Q); (true, 0%Q); (false, 1%Q)]))
    = [(1%Z, 1%positive); (4%Z, 1%positive); (4%Z, 1%positive); (3%Z, 1%positive); (5%Z, 2%positive); (1%Z, 1%positive); (1%Z, 1%positive)].
Proof.
  split; [|split; [reflexivity|vm_compute; reflexivity]]. intros e [<-|[<-|[<-|[]]]]; reflexivity.
Qed.

(** ** C23 *)
(** In an accepted file, take a line with a start time [a] and the next line with
    a start time [b] ([anchor]: spined, not all null), no barline between them;
    the null data lines between them ([null_positions]) are placed evenly. *)
Theorem C23_null_lines_even : forall f st starts durs pre la mid lb post,
  walk_result f = Some st -> analyzeRhythm f = RhythmOk starts durs ->
  rf_lines f = pre ++ la :: mid ++ lb :: post ->
  length (rs_start st) = length (rf_lines f) ->
  let i := length pre in
  let j := S i + length mid in
  let a := nth i (rs_start st) (-1)%Q in
  let b := nth j (rs_start st) (-1)%Q in
  anchor la a -> anchor lb b -> l_barline lb = false ->
  (forall k l, nth_error mid k = Some l -> quiet l (nth (S i + k) (rs_start st) (-1)%Q)) ->
  let nulls := null_positions (S i) mid in
  nth i starts (-1)%Q = a /\ nth j starts (-1)%Q = b /\
  (forall k m, nth_error nulls k = Some m ->
    (nth m starts (-1) == a + inject_Z (Z.of_nat k + 1) * (b - a) / inject_Z (Z.of_nat (length nulls) + 1))%Q) /\
  ((a < b)%Q -> forall k k' m m', nth_error nulls k = Some m -> nth_error nulls k' = Some m' -> k < k' ->
    (a < nth m starts (-1))%Q /\ (nth m starts (-1) < nth m' starts (-1))%Q /\ (nth m' starts (-1) < b)%Q).
Proof.
  intros f st starts durs pre la mid lb post W H LS LN i j a b A B NB Q1 nulls.
  unfold analyzeRhythm in H. rewrite W in H. destruct (negb (rs_valid st)); [discriminate|].
  destruct (analyzeNullLineRhythms (rf_lines f) (rs_start st)) as [s|] eqn:E; [|discriminate]. injection H as <- _.
  rewrite LS in E, LN.
  destruct (null_lines_spread pre la mid lb post (rs_start st) s LN A B NB Q1 E) as (S1 & S2 & S3).
  fold i j a b nulls in S1, S2, S3.
  assert (P : (0 < inject_Z (Z.of_nat (length nulls) + 1))%Q) by (unfold Qlt; cbn; lia).
  assert (KA : known a) by apply A. assert (KB : known b) by apply B. unfold known in KA, KB.
  assert (KL : forall k m, nth_error nulls k = Some m -> k < length nulls) by (intros k m Hk; eapply nth_error_lt; exact Hk).
  assert (F : forall k m, nth_error nulls k = Some m -> nth m (fillInMissingStartTimes s) (-1)%Q = nth m s (-1)%Q).
  { intros k m Hk. apply fill_keeps. unfold known. rewrite (S3 k m Hk). specialize (KL k m Hk).
    set (n1 := inject_Z (Z.of_nat (length nulls) + 1)) in *. set (k1 := inject_Z (Z.of_nat k + 1)).
    assert (K1 : (0 <= k1)%Q) by (unfold k1, Qle; cbn; lia).
    assert (K2 : (k1 <= n1)%Q) by (unfold k1, n1, Qle; cbn; lia).
    setoid_replace (a + k1 * (b - a) / n1)%Q with ((a * (n1 - k1) + k1 * b) / n1)%Q
      by (field; intros X; rewrite X in P; discriminate P).
    apply Qle_shift_div_l; [exact P|]. rewrite Qmult_0_l.
    setoid_replace 0%Q with (0 + 0)%Q by ring. apply Qplus_le_compat; apply Qmult_le_0_compat; auto.
    apply -> Qle_minus_iff. exact K2. }
  split; [rewrite fill_keeps; [exact S1|unfold known; rewrite S1; exact KA]|].
  split; [rewrite fill_keeps; [exact S2|unfold known; rewrite S2; exact KB]|].
  split; [intros k m Hk; rewrite (F k m Hk); apply S3; exact Hk|].
  intros AB k k' m m' Hk Hk' KK. rewrite (F k m Hk), (F k' m' Hk'), (S3 k m Hk), (S3 k' m' Hk').
  pose proof (KL _ _ Hk'). set (n1 := inject_Z (Z.of_nat (length nulls) + 1)) in *.
  assert (D : (0 < b - a)%Q) by (apply -> Qlt_minus_iff; exact AB).
  assert (INC : forall x y : Q, (x < y)%Q -> (a + x * (b - a) / n1 < a + y * (b - a) / n1)%Q).
  { intros x y XY. apply Qplus_lt_r. apply Qmult_lt_compat_r; [apply Qinv_lt_0_compat; exact P|].
    apply Qmult_lt_compat_r; assumption. }
  assert (Z0 : (a == a + 0 * (b - a) / n1)%Q) by (field; intros X; rewrite X in P; discriminate P).
  assert (Z1 : (b == a + n1 * (b - a) / n1)%Q) by (field; intros X; rewrite X in P; discriminate P).
  repeat split.
  - rewrite Z0 at 1. apply INC. unfold Qlt. cbn. lia.
  - apply INC. unfold Qlt. cbn. lia.
  - rewrite Z1 at 2. apply INC. unfold n1, Qlt. cbn. lia.
Qed.
Print Assumptions C23_null_lines_even.

(** No line that is not a null data line is given another time by the step. *)
Theorem C23_other_lines_kept : forall lines starts r,
  analyzeNullLineRhythms lines starts = Some r ->
  length r = length starts /\
  forall m, (forall l, nth_error lines m = Some l -> l_allnull l && l_data l = false) ->
    nth m r (-1)%Q = nth m starts (-1)%Q.
Proof.
  intros lines starts r H.
  exact (null_loop_keeps lines lines 0 None [] starts r (fun k _ => eq_refl) (fun n (F : In n []) => match F with end) H).
Qed.
Print Assumptions C23_other_lines_kept.

(** The two null lines of this file are placed at 1/3 and 2/3. *)
Definition c23_file : list str :=
  [S_ "**kern"; S_ "4c"; S_ "."; S_ "! x"; S_ "*clefG2"; S_ "."; S_ "4d"; S_ "*-"].
Example C23_nonvacuous : run c23_file (fun f g starts durs =>
    Qeq_bool (nth 2 starts (-1)%Q) (1 # 3) && Qeq_bool (nth 5 starts (-1)%Q) (2 # 3) && Qeq_bool (nth 6 starts (-1)%Q) 1) = true /\
  (let dkern := mkLine true false true false in let dnull := mkLine true false true true in let com := mkLine true false false true in
   anchor dkern 0 /\ quiet dnull (-1) /\ quiet com (-1) /\ quiet (mkLine true false false false) (-1) /\ anchor dkern 1 /\
   null_positions 2 [dnull; com; mkLine true false false false; dnull] = [2; 5]).
Proof.
  split; [vm_compute; reflexivity|]. cbv zeta. unfold anchor, quiet, known. cbn.
  repeat split; auto; try discriminate. right. right. repeat split; auto.
Qed.

(** ** C24 *)
Theorem C24_fill : forall l,
  let r := fillInMissingStartTimes l in
  length r = length l /\
  (Exists known l -> Forall known r) /\
  (forall i, known (nth i l (-1)%Q) -> nth i r (-1)%Q = nth i l (-1)%Q) /\
  (in_order (known_times l) -> Exists known l -> in_order r).
Proof.
  intros l r. split; [apply fill_length|]. split; [apply fill_complete|]. split; [apply fill_keeps|apply fill_order].
Qed.
Print Assumptions C24_fill.

Example C24_nonvacuous :
  fillInMissingStartTimes [-1; 0; -1; -1; 2; 3; -1]%Q = [0; 0; 2; 2; 2; 3; 3]%Q /\
  in_order (known_times [-1; 0; -1; -1; 2; 3; -1]%Q) /\ Exists known [-1; 0; -1; -1; 2; 3; -1]%Q.
Proof.
  split; [vm_compute; reflexivity|]. split; [vm_compute; repeat split; intro X; discriminate X|].
  apply Exists_cons_tl, Exists_cons_hd. apply Qle_refl.
Qed.

(** ** C25 *)
Theorem C25_tpq_least : forall durs,
  (0 < tpq durs)%Z /\ (forall q, In q durs -> (0 < q)%Q -> whole_ticks (tpq durs) q) /\
  forall m, (0 < m)%Z -> (forall q, In q durs -> (0 < q)%Q -> whole_ticks m q) -> (tpq durs <= m)%Z.
Proof. exact tpq_least. Qed.
Print Assumptions C25_tpq_least.

Example C25_nonvacuous : tpq [1; 1 # 2; 1 # 3; 0; 3 # 4; 2 # 8]%Q = 12%Z.
Proof. vm_compute. reflexivity. Qed.

(** Property theorems C32 (octave lines), C33 and C66 (rhythmic scaling), C53 and C65
    (positioned rests), C54 (colours), C55 (pickups), C64 (repeated text). *)
From Coq Require Import Lia QArith.
From Verif Require Import PyStr PyStrProofs RecipModel RecipProofs PitchModel PitchProofs ClefModel BarModel
  ContentModel ContentProofs ContentProofs2.
Local Close Scope Q_scope.

Definition kt (track : nat) (s : str) (d : Q) : ctok := mkC track 1 true s d.

(** C32.  The full statement is that of [C32_octave_lines_partial] without its two
    hypotheses.  Nested lines are not restored: after 8va, 15ma and the end of the
    15ma, the 8va is still open but the note carries no shift. *)
Theorem C32_octave_lines_refuted : exists ls,
  let h := octave_history 1 ls in
  open_lines h = [1%Z] /\ at_pos (analyzeOttavas (ls ++ [CData [kt 1 (S_ "4c") 1]])) (length ls) 0 = None.
Proof.
  exists [CInterp [kt 1 (S_ "*8va") 0]; CInterp [kt 1 (S_ "*15ma") 0]; CInterp [kt 1 (S_ "*X15ma") 0]].
  vm_compute. split; reflexivity.
Qed.
Print Assumptions C32_octave_lines_refuted.

(** C32, part: for files in which every stop ends an open line of its kind, and a
    track's lines have all been closed whenever its last mark is a stop. *)
Theorem C32_octave_lines_partial : forall ls i ts j t,
  nth_error ls i = Some (CData ts) -> nth_error ts j = Some t ->
  let h := octave_history (c_track t) (firstn i ls) in
  well_closed h -> (forall v h', h = h' ++ [(false, v)] -> open_lines h = []) ->
  at_pos (analyzeOttavas ls) i j =
  if c_kern t && negb (is_null (c_text t)) then hd_error (open_lines h) else None.
Proof. exact octave_value. Qed.
Print Assumptions C32_octave_lines_partial.

Example C32_nonvacuous :
  let ls := [CInterp [kt 1 (S_ "*8va") 0; kt 2 (S_ "*15ba") 0]; CData [kt 1 (S_ "4c") 1; kt 2 (S_ "4d") 1];
             CInterp [kt 1 (S_ "*X8va") 0; kt 2 (S_ "*") 0]; CData [kt 1 (S_ "4c") 1; kt 2 (S_ "4d") 1]] in
  well_closed (octave_history 1 (firstn 3 ls)) /\ open_lines (octave_history 2 (firstn 3 ls)) = [(-2)%Z] /\
  analyzeOttavas ls = [[]; [Some 1%Z; Some (-2)%Z]; []; [None; Some (-2)%Z]].
Proof.
  cbv zeta. split; [|split; vm_compute; reflexivity]. intros h1 v h2 E. vm_compute in E.
  destruct h1 as [|x [|y h1]]; cbn in E.
  - discriminate.
  - injection E as <- <- <-. left. reflexivity.
  - injection E as _ _ E. destruct h1; discriminate.
Qed.

(** C33.  A token of a data line carries a rhythmic scale if and only if it is a
    **kern token, not null, with a known duration, and the last scale given in its
    track is not one; the text then shows the scaled undotted duration with the
    token's dots.  The analysis raises nothing if no scale has a zero denominator. *)
Theorem C33_rscale : forall ls r i ts j t, analyzeRScale ls = Some r ->
  nth_error ls i = Some (CData ts) -> nth_error ts j = Some t ->
  let q := last_scale (c_track t) (firstn i ls) in
  (c_kern t = true /\ is_null (c_text t) = false /\ (0 <= c_dur t)%Q /\ ~ (q == 1)%Q ->
   at_pos r i j = Some (durationToRecip (durationNoDots t * q)%Q ++ rep "."%char (dotCount (c_text t)))) /\
  (~ (c_kern t = true /\ is_null (c_text t) = false /\ (0 <= c_dur t)%Q /\ ~ (q == 1)%Q) ->
   at_pos r i j = None).
Proof. exact rscale_at. Qed.
Print Assumptions C33_rscale.

Theorem C33_rscale_total : forall ls,
  (forall k s, In s (scale_texts k ls) -> rscale_value s <> None) -> analyzeRScale ls <> None.
Proof. exact rscale_total. Qed.
Print Assumptions C33_rscale_total.

Example C33_nonvacuous :
  analyzeRScale [CInterp [kt 1 (S_ "*rscale:2") 0; kt 2 (S_ "*rscale:1/2") 0];
                 CData [kt 1 (S_ "4.c") (3 # 2); kt 2 (S_ "4d") 1];
                 CInterp [kt 1 (S_ "*rscale:1") 0; kt 2 (S_ "*") 0];
                 CData [kt 1 (S_ "4c") 1; kt 2 (S_ "4d") 1]]
  = Some [[]; [Some (S_ "2."); Some (S_ "8")]; []; [None; Some (S_ "8")]].
Proof. vm_compute. reflexivity. Qed.

(** C66.  The displayed rhythm is the scale times the token's duration.  Full
    statement: for every token.  A dotted quarter scaled by 3/2 is displayed as a
    double-dotted quarter. *)
Theorem C66_scaled_rhythm_refuted : exists q t x,
  (c_dur t == 3 # 2)%Q /\ c_text t = S_ "4.c" /\
  recip_eval (durationToRecip (durationNoDots t * q)%Q ++ rep "."%char (dotCount (c_text t))) 4 = Rhythm x /\
  ~ (x == q * c_dur t)%Q.
Proof.
  exists (3 # 2)%Q, (kt 1 (S_ "4.c") (3 # 2)). eexists. split; [reflexivity|]. split; [reflexivity|].
  split; [vm_compute; reflexivity|]. discriminate.
Qed.
Print Assumptions C66_scaled_rhythm_refuted.

(** C66, part: when the scaled undotted duration needs no dots of its own, or the
    token has none. *)
Theorem C66_scaled_rhythm_partial : forall q t, (0 <= q)%Q -> (0 <= c_dur t)%Q ->
  dotCount (c_text t) = 0 \/ char_in "."%char (durationToRecip (durationNoDots t * q)%Q) = false ->
  exists x,
  recip_eval (durationToRecip (durationNoDots t * q)%Q ++ rep "."%char (dotCount (c_text t))) 4 = Rhythm x /\
  (x == q * c_dur t)%Q.
Proof.
  intros q t Hq Hd H. pose proof (dotted_durationNoDots t) as D.
  assert (P : (0 <= durationNoDots t)%Q).
  { assert (F : (0 < dot_factor (dotCount (c_text t)))%Q).
    { unfold dot_factor. apply Qlt_shift_div_l.
      - change 0%Q with (inject_Z 0). rewrite <- Zlt_Qlt. apply Z.pow_pos_nonneg; lia.
      - rewrite Qmult_0_l. change 0%Q with (inject_Z 0). rewrite <- Zlt_Qlt.
        assert (0 < 2 ^ Z.of_nat (dotCount (c_text t)))%Z by (apply Z.pow_pos_nonneg; lia).
        rewrite Z.pow_add_r by lia. lia. }
    rewrite <- D in Hd. destruct (Qlt_le_dec (durationNoDots t) 0) as [N|N]; [|exact N]. exfalso.
    assert (X : (durationNoDots t * dot_factor (dotCount (c_text t)) < 0)%Q).
    { rewrite <- (Qmult_0_l (dot_factor (dotCount (c_text t)))). apply Qmult_lt_r; assumption. }
    apply Qlt_not_le in X. contradiction. }
  assert (P2 : (0 <= durationNoDots t * q)%Q) by (apply Qmult_le_0_compat; assumption).
  assert (R : reads_as (durationToRecip (durationNoDots t * q)%Q ++ rep "."%char (dotCount (c_text t)))
                (durationNoDots t * q * dot_factor (dotCount (c_text t)))).
  { destruct H as [H|H].
    - rewrite H. cbn [rep repeat]. rewrite app_nil_r. destruct (durationToRecip_reads _ P2) as [x [X1 X2]].
      exists x. split; [exact X1|]. rewrite X2, dot_factor_0. ring.
    - apply dotted_reads; assumption. }
  destruct R as [x [X1 X2]]. exists x. split; [exact X1|]. rewrite X2, <- D. ring.
Qed.
Print Assumptions C66_scaled_rhythm_partial.

Example C66_nonvacuous : (0 <= 2)%Q /\ (0 <= c_dur (kt 1 (S_ "4.c") (3 # 2)))%Q /\
  char_in "."%char (durationToRecip (durationNoDots (kt 1 (S_ "4.c") (3 # 2)) * 2)%Q) = false.
Proof. split; [discriminate|]. split; [discriminate|vm_compute; reflexivity]. Qed.

(** C53.  The shift set on a positioned rest is an even number of diatonic steps from
    the middle line of the clef in force in its track, at most one step from the
    encoded position, and the encoded position itself if that is on a line. *)
Theorem C53_rest_on_line : forall ls i ts j t shift,
  nth_error ls i = Some (CData ts) -> nth_error ts j = Some t ->
  at_pos (analyzeRestPositions ls) i j = Some shift ->
  let baseline := kernClefToBaseline (last_clef (c_track t) (firstn i ls)) in
  exists pitch, pitch_run (c_text t) = Some pitch /\ (0 <= kernToBase7 pitch)%Z /\
  let encoded := (kernToBase7 pitch - (baseline + 4))%Z in
  (shift mod 2 = 0)%Z /\ (Z.abs (shift - encoded) <= 1)%Z /\ ((encoded mod 2 = 0)%Z -> shift = encoded).
Proof.
  intros ls i ts j t shift Hi Hj H baseline. rewrite (rest_position _ _ _ _ _ Hi Hj) in H.
  destruct (c_kern t && char_in "r"%char (c_text t)); [|discriminate]. exact (stepShift_line _ _ _ _ H).
Qed.
Print Assumptions C53_rest_on_line.

Example C53_nonvacuous :
  analyzeRestPositions [CInterp [kt 1 (S_ "*clefF4") 0; kt 2 (S_ "*clefG2") 0];
                        CData [kt 1 (S_ "4rD") 1; kt 2 (S_ "2ccr") 2]]
  = [[]; [Some 0%Z; Some 0%Z]] /\
  at_pos (analyzeRestPositions [CData [kt 1 (S_ "4ddr") 1]]) 0 0 = Some 2%Z.
Proof. vm_compute. split; reflexivity. Qed.

(** C65.  A rest moved by an even number of steps is written with a pitch that is
    read back as the same shift under the same clef. *)
Theorem C65_rest_roundtrip : forall shift baseline pre post dur,
  (shift mod 2 = 0)%Z -> (0 <= baseline + 4 + shift < 119)%Z ->
  (forall c, In c (pre ++ post) -> ~ In c (S_ "ABCDEFGabcdefg")) ->
  exists k, restPitch shift baseline = Some k /\
  stepShift (pre ++ k ++ post) dur baseline = if Z.eqb shift 0 then None else Some shift.
Proof.
  intros shift baseline pre post dur E B H.
  assert (N : forall l, (forall c, In c l -> In c (pre ++ post)) -> existsb is_pitch_letter l = false).
  { intros l S1. destruct (existsb is_pitch_letter l) eqn:X; [|reflexivity]. exfalso.
    apply existsb_exists in X as [c [I C]]. apply (H c (S1 c I)). unfold is_pitch_letter, char_in in C.
    apply existsb_exists in C as [d [D1 D2]]. apply Ascii.eqb_eq in D2. subst d. exact D1. }
  apply rest_roundtrip; [exact E|exact B|apply N|apply N]; intros c I; apply in_or_app; auto.
Qed.
Print Assumptions C65_rest_roundtrip.

Theorem C65_odd_shift_refuted : exists shift baseline k,
  restPitch shift baseline = Some k /\ stepShift (S_ "4r" ++ k) 1 baseline <> Some shift.
Proof. exists 1%Z, 30%Z, (S_ "cc"). split; [reflexivity|]. vm_compute. discriminate. Qed.
Print Assumptions C65_odd_shift_refuted.

Example C65_nonvacuous : (4 mod 2 = 0)%Z /\ (0 <= 30 + 4 + 4 < 119)%Z /\ restPitch 4 30 = Some (S_ "ff") /\
  stepShift (S_ "4r" ++ S_ "ff" ++ S_ "yy") 1 30 = Some 4%Z.
Proof. repeat split; vm_compute; reflexivity || discriminate. Qed.

(** C54.  Full statement: the colour of a track is that of its own last colour
    interpretation.  All tracks share one list of colours. *)
Theorem C54_colors_refuted : exists ls,
  (forall t, In t (opening_tokens ls) -> color_value t <> None -> c_track t = 1) /\
  color_get (initializeSpineColor 2 ls) 2 1 <> [].
Proof.
  exists [CInterp [mkC 1 1 true (S_ "*color:red") 0; mkC 2 1 true (S_ "*") 0]]. split.
  - intros t [<-|[<-|[]]] H; [reflexivity|]. exfalso. apply H. reflexivity.
  - vm_compute. discriminate.
Qed.
Print Assumptions C54_colors_refuted.

(** C54, part: the colour is that of the last interpretation in any track that holds
    for the subtrack; so it is right for a track that alone has colours. *)
Theorem C54_colors_partial : forall maxTrack ls track s, s < 30 ->
  color_get (initializeSpineColor maxTrack ls) track s = last_color (opening_tokens ls) s.
Proof. exact color_any. Qed.
Print Assumptions C54_colors_partial.

Theorem C54_single_track_partial : forall maxTrack ls track s, s < 30 ->
  (forall t, In t (opening_tokens ls) -> color_value t <> None -> c_track t = track) ->
  color_get (initializeSpineColor maxTrack ls) track s =
  last_color (filter (fun t => Nat.eqb (c_track t) track) (opening_tokens ls)) s.
Proof.
  intros M ls track s Hs H. rewrite color_any by exact Hs. unfold last_color. generalize (@nil ascii).
  induction (opening_tokens ls) as [|t ts IH]; intros col; [reflexivity|]. cbn [filter fold_left].
  assert (IH' : forall col, _) by (exact (IH (fun t' I => H t' (or_intror I)))). rewrite IH'.
  destruct (Nat.eqb_spec (c_track t) track) as [E|N]; [reflexivity|].
  destruct (color_value t) eqn:C; [|reflexivity]. exfalso. apply N, H; [left; reflexivity|congruence].
Qed.
Print Assumptions C54_single_track_partial.

Example C54_nonvacuous :
  let ls := [CInterp [mkC 1 1 true (S_ "*color:red") 0; mkC 1 2 true (S_ "*color:blue") 0];
             CData [mkC 1 1 true (S_ "4c") 1]; CInterp [mkC 1 1 true (S_ "*color:green") 0]] in
  color_get (initializeSpineColor 1 ls) 1 1 = S_ "red" /\ color_get (initializeSpineColor 1 ls) 1 0 = S_ "red" /\
  color_get (initializeSpineColor 1 ls) 1 2 = S_ "blue".
Proof. vm_compute. repeat split. Qed.

(** C55.  Full statement: a pickup is reported if and only if some music, shorter
    than the first time signature's measure, precedes the first barline.  A file
    whose first measure begins with a barline is reported to have a pickup. *)
Theorem C55_pickup_refuted : exists ls durs b,
  (durs b == 0)%Q /\ nth_error ls (Z.to_nat b) = Some (CBar []) /\ hasPickup ls durs = Some b /\ (b <> 0)%Z.
Proof.
  exists [CInterp [kt 1 (S_ "**kern") 0]; CInterp [kt 1 (S_ "*M4/4") 0]; CBar []; CData [kt 1 (S_ "1c") 4]; CBar []],
    (fun i => if (i <=? 2)%Z then 0%Q else 4%Q), 2%Z.
  split; [reflexivity|]. split; [reflexivity|]. split; [vm_compute; reflexivity|discriminate].
Qed.
Print Assumptions C55_pickup_refuted.

Lemma pickup_part : forall l ls rest durs s d, (forall ts, l <> CBar ts) ->
  after_bar (l :: ls) = Some rest ->
  first_timesig (before_bar (l :: ls) ++ before_bar rest) = Some s -> timeSigToDuration s = Some d ->
  let b := Z.of_nat (length (before_bar (l :: ls))) in
  (0 < durs b)%Q -> (durs b <= d)%Q ->
  exists x, hasPickup (l :: ls) durs = Some x /\ ((x <> 0)%Z <-> (durs b < d)%Q) /\ (x <> 0 -> x = b)%Z.
Proof.
  intros l ls rest durs s d NB AB FT TS b P L. destruct (pickup_exact l ls rest durs NB AB) as [B H].
  fold b in B, H. rewrite FT, TS in H. destruct (Qeq_bool (durs b) d) eqn:E.
  - exists 0%Z. split; [exact H|]. apply Qeq_bool_eq in E. split; [|lia]. split; [lia|].
    intros X. rewrite E in X. exfalso. exact (Qlt_irrefl _ X).
  - exists b. split; [exact H|]. apply Qeq_bool_false in E. split; [|auto]. split; [|lia].
    intros _. apply Qle_lteq in L. destruct L; [assumption|contradiction].
Qed.

(** The time signature [top]/[bottom], with anything but a digit after it. *)
Definition signature_text (top : N) (bottom : positive) (tail : str) : str :=
  S_ "*M" ++ show_N top ++ "/"%char :: show_N (Npos bottom) ++ tail.

Lemma signature_duration top bottom tail :
  match tail with [] => True | c :: _ => is_digit c = false end ->
  exists d, timeSigToDuration (signature_text top bottom tail) = Some d
            /\ (d == (4 * Z.of_N top) # bottom)%Q.
Proof.
  intro T. unfold timeSigToDuration, signature_text.
  destruct (show_N_cons top) as (c & r & E & C).
  destruct (show_N_cons (Npos bottom)) as (c' & r' & E' & C').
  assert (I : isTimeSignature (S_ "*M" ++ show_N top ++ "/"%char :: show_N (Npos bottom) ++ tail) = true).
  { assert (X : char_in "/"%char (S_ "*M" ++ show_N top ++ "/"%char :: show_N (Npos bottom) ++ tail) = true).
    { unfold char_in. rewrite !existsb_app. cbn [existsb]. rewrite !orb_true_iff. right. right. left. reflexivity. }
    assert (Y : nth_error (S_ "*M" ++ show_N top ++ "/"%char :: show_N (Npos bottom) ++ tail) 2 = Some c)
      by (rewrite E; reflexivity).
    unfold isTimeSignature. rewrite X, Y, C. reflexivity. }
  rewrite I. cbn [negb].
  change (skipn 2 (S_ "*M" ++ show_N top ++ "/"%char :: show_N (Npos bottom) ++ tail))
    with (show_N top ++ "/"%char :: show_N (Npos bottom) ++ tail).
  rewrite (span_app_all is_digit (show_N top)) by (try reflexivity; apply show_N_digits).
  rewrite E. cbv beta iota.
  rewrite (span_app_all is_digit (show_N (Npos bottom)) tail) by (auto; apply show_N_digits).
  rewrite E'. cbv beta iota. rewrite <- E, <- E', !parse_show_N. cbn [mk_frac].
  eexists. split; [reflexivity|]. unfold Qeq, Qmult. cbn [Qnum Qden]. lia.
Qed.

(** C55, part: for a file that does not begin with a barline and has one, the first
    time signature before the second barline decides; when the music before the first
    barline is neither empty nor too long, a pickup is reported exactly if it is
    shorter than the measure. *)
Theorem C55_pickup_partial : forall l ls rest durs top bottom tail, (forall ts, l <> CBar ts) ->
  after_bar (l :: ls) = Some rest ->
  match tail with [] => True | c :: _ => is_digit c = false end ->
  first_timesig (before_bar (l :: ls) ++ before_bar rest) = Some (signature_text top bottom tail) ->
  let measure := ((4 * Z.of_N top) # bottom)%Q in
  let b := Z.of_nat (length (before_bar (l :: ls))) in
  (0 < durs b)%Q -> (durs b <= measure)%Q ->
  exists x, hasPickup (l :: ls) durs = Some x /\ ((x <> 0)%Z <-> (durs b < measure)%Q)
            /\ (x <> 0 -> x = b)%Z.
Proof.
  intros l ls rest durs top bottom tail NB AB T FT measure b P L.
  destruct (signature_duration top bottom tail T) as (d & TS & E). fold measure in E.
  rewrite <- E in L. destruct (pickup_part l ls rest durs _ d NB AB FT TS P L) as (x & A & B & C).
  exists x. rewrite <- E. auto.
Qed.
Print Assumptions C55_pickup_partial.

(** C55: no barline or no time signature, no pickup; and the exact answer otherwise. *)
Theorem C55_pickup_exact : forall l ls rest durs, (forall ts, l <> CBar ts) ->
  after_bar (l :: ls) = Some rest ->
  let b := Z.of_nat (length (before_bar (l :: ls))) in
  (0 < b)%Z /\
  hasPickup (l :: ls) durs =
  match first_timesig (before_bar (l :: ls) ++ before_bar rest) with
  | None => Some 0%Z
  | Some s => match timeSigToDuration s with
              | None => None
              | Some d => Some (if Qeq_bool (durs b) d then 0%Z else b)
              end
  end.
Proof. exact pickup_exact. Qed.
Print Assumptions C55_pickup_exact.
Theorem C55_no_barline : forall l ls durs, (forall ts, l <> CBar ts) -> after_bar (l :: ls) = None ->
  hasPickup (l :: ls) durs = Some 0%Z.
Proof. exact pickup_no_bar. Qed.
Print Assumptions C55_no_barline.

Example C55_nonvacuous :
  let ls := [CInterp [kt 1 (S_ "**kern") 0]; CInterp [kt 1 (S_ "*M3/4") 0]; CData [kt 1 (S_ "4c") 1]; CBar [];
             CData [kt 1 (S_ "2.c") 3]; CBar []] in
  first_timesig (before_bar ls) = Some (S_ "*M3/4") /\ S_ "*M3/4" = signature_text 3 4 [] /\
  hasPickup ls (fun i => if (i <=? 2)%Z then 0%Q else if (i <=? 4)%Z then 1%Q else 4%Q) = Some 3%Z.
Proof. vm_compute. auto. Qed.

(** C64.  In one text spine: a syllable is marked as repeated text exactly if an
    opening mark precedes it with no closing mark between; marked first exactly if no
    syllable stands between such an opening mark and it; and marked last exactly if,
    besides, a closing mark follows before any other syllable. *)
Theorem C64_text_repetition : forall ts i,
  (In (i, Ij) (analyzeTextRepetition ts) <-> syllable ts i /\ inside ts i) /\
  (In (i, IjBegin) (analyzeTextRepetition ts) <-> syllable ts i /\ fresh ts i) /\
  (In (i, IjEnd) (analyzeTextRepetition ts) <-> syllable ts i /\ inside ts i /\ ends ts i).
Proof. exact ij_regions. Qed.
Print Assumptions C64_text_repetition.

Example C64_nonvacuous :
  analyzeTextRepetition [TInterp (S_ "**text"); TData (S_ "A-"); TInterp (S_ "*ij"); TData (S_ "-men"); TData (S_ ".");
    TData (S_ "a-"); TOther (S_ "=2"); TInterp (S_ "*Xij"); TData (S_ "-men")]
  = [(3, Ij); (3, IjBegin); (5, Ij); (5, IjEnd)].
Proof. vm_compute. reflexivity. Qed.

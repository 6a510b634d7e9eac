(** Property theorems C102 (pitches) and C103 (vertical positions) in MEI. *)
From Coq Require Import ZArith Lia Bool.
From Verif Require Import PyStr PyStrProofs NamesModel NamesProofs MeiPitchModel.

Lemma digit_not_minus c : is_digit c = true -> Ascii.eqb c "-" = false.
Proof. intros H. destruct (Ascii.eqb_spec c "-"); [subst; discriminate|reflexivity]. Qed.
Lemma parse_show_Z z : parse_Z (show_Z z) = z.
Proof.
  unfold parse_Z, show_Z. destruct z as [|p|p].
  - reflexivity.
  - destruct (show_N_cons (N.pos p)) as (c & s & E & D). rewrite E. rewrite (digit_not_minus _ D). rewrite <- E, parse_show_N. reflexivity.
  - change (Ascii.eqb "-" "-") with true. cbv iota. rewrite parse_show_N. reflexivity.
Qed.
Lemma show_Z_ne z : exists c s, show_Z z = c :: s.
Proof. pose proof (show_Z_chars z) as H. destruct (show_Z z); [contradiction|eauto]. Qed.

(** How far an accidental moves the pitch, in quarter tones. *)
Definition quarters (a : accid) : option Z :=
  match a with
  | ANat => Some 0 | ASharp => Some 2 | ASharp2 => Some 4 | ASharp3 => Some 6 | ASharp4 => Some 8
  | AFlat => Some (-2) | AFlat2 => Some (-4) | AFlat3 => Some (-6) | AFlat4 => Some (-8)
  | AHalfSharp => Some 1 | ASharpHalf => Some 3 | AHalfFlat => Some (-1) | AFlatHalf => Some (-3)
  | AOther => None
  end%Z.
(** How far the note is moved by its accidental, and the accidental that is seen. *)
Definition moved (p : pitch) : option Z := match acc p with Some (a, _) => quarters a | None => Some 0%Z end.
Definition seen (p : pitch) : option accid := match acc p with Some (a, true) => Some a | _ => None end.

(** The octave in which a note sounds under some ottavas: notes under an ottava
    that transposes are given as written. *)
Definition sounds (os : list ottava) (p : pitch) : Z :=
  fold_right (fun o n => if o_transposing o then (n + octaveShift (o_type o))%Z else n) (implicitOctave p) os.

(** A pitch with an accidental of up to two sharps or flats, or with quarter
    tones, or with three if they are shown, comes back with its step, sounding
    octave, alteration and shown accidental, if it is a single note under one
    ottava at most, or under ottavas that transpose.  *)
Theorem C102_pitch_partial : forall own p,
  In (step p) step_names ->
  (forall a d, acc p = Some (a, d) -> exists q, quarters a = Some q /\ (Z.abs q <= 6)%Z /\ ((Z.abs q = 6)%Z -> d = true)) ->
  (length own <= 1 \/ forall o, In o own -> o_transposing o = true) ->
  exists os, map readOttava (map writeOttava own) = map Some os /\
  let p' := readPitch (writePitch own p) in
  step p' = step p /\ sounds os p' = sounds own p /\ moved p' = moved p /\ seen p' = seen p.
Proof.
  intros own p ST AC OW. exists (map (fun o => mkO (o_type o) true) own). split.
  { rewrite !map_map. apply map_ext. intros [[] tr]; reflexivity. }
  cbn zeta. destruct p as [s o ac]. cbn [step acc] in *.
  unfold writePitch. cbn [step acc implicitOctave octave].
  set (io := implicitOctave _). 
  assert (IO : io = match o with Some x => x | None => 4%Z end) by reflexivity. clearbody io.
  destruct (shiftOf own) as [sh tr] eqn:SH.
  set (w := match ac with Some (a, true) => _ | Some (a, false) => _ | None => _ end).
  assert (W : exists x y, w = (x, y) /\
    (match opt_bind y accidGesAttr, opt_bind x accidAttr with Some g, _ => Some (g, false) | None, Some b => Some (b, true) | None, None => None end)
    = match ac with Some (ANat, false) => None | _ => ac end).
  { destruct ac as [[a d]|]; [|do 2 eexists; split; reflexivity]. destruct (AC a d eq_refl) as (q & Q1 & Q2 & Q3).
    unfold w. destruct d; destruct a; cbn [quarters] in Q1; try discriminate; injection Q1 as <-;
      try (exfalso; lia); try (specialize (Q3 eq_refl); discriminate); do 2 eexists; split; reflexivity. }
  clearbody w. destruct W as (x & y & -> & W).
  set (oo := if (sh =? 0)%Z then _ else _).
  assert (OO : exists og, oo = ((if (sh =? 0)%Z then io else if tr then io else (io - sh)%Z), og)).
  { unfold oo. destruct (sh =? 0)%Z; [|destruct tr]; eexists; reflexivity. }
  clearbody oo. destruct OO as (og & ->). remember (if (sh =? 0)%Z then io else if tr then io else (io - sh)%Z) as oct eqn:OC.
  cbv beta iota zeta delta [readPitch p_oct p_octges p_accid p_accidges p_pname]. unfold str in *. rewrite W.
  assert (NE : nonempty (Some (show_Z oct)) = Some (show_Z oct)) by (destruct (show_Z_ne oct) as (c & t & ->); reflexivity).
  unfold str in *. rewrite NE, parse_show_Z. split; [|split; [|split]].
  - cbn [step]. revert ST. clear. cbn [In step_names]. intuition (subst; reflexivity).
  - unfold sounds. unfold implicitOctave. cbn [octave]. rewrite <- IO.
    destruct OW as [OW|OW].
    + destruct own as [|u [|v own]]; [| |cbn in OW; lia].
      * injection SH as <- <-. rewrite OC. reflexivity.
      * injection SH as <- <-. cbn [map fold_right o_type o_transposing]. rewrite OC.
        destruct u as [[] []]; cbn; lia.
    + assert (X : tr = true). { destruct own as [|u own]; injection SH as _ <-; [reflexivity|apply OW; left; reflexivity]. }
      assert (Y : oct = io) by (rewrite OC, X; destruct (sh =? 0)%Z; reflexivity). rewrite Y.
      clear - OW. induction own as [|u own IH]; [reflexivity|]. cbn [map fold_right o_transposing o_type].
      rewrite (OW u) by (left; reflexivity). rewrite IH; [reflexivity|]. intros v V. apply OW. right. exact V.
  - unfold moved. cbn [acc]. destruct ac as [[a d]|]; [|reflexivity]. destruct a, d; reflexivity.
  - unfold seen. cbn [acc]. destruct ac as [[a d]|]; [|reflexivity]. destruct a, d; reflexivity.
Qed.
Print Assumptions C102_pitch_partial.
Example C102_nonvacuous :
  let p := mkP "G" (Some 5%Z) (Some (ASharp, true)) in
  writePitch [mkO O8va false] p = mkPA (S_ "g") (Some (S_ "4")) (Some (S_ "5")) (Some (S_ "s")) None /\
  readPitch (writePitch [mkO O8va false] p) = mkP "G" (Some 4%Z) (Some (ASharp, true)).
Proof. split; reflexivity. Qed.

(** A hidden triple sharp is lost: the note comes back as its natural. *)
Theorem C102_triple_refuted : exists p, moved p = Some 6%Z /\ moved (readPitch (writePitch [] p)) = Some 0%Z.
Proof. exists (mkP "F" (Some 4%Z) (Some (ASharp3, false))). split; reflexivity. Qed.
Print Assumptions C102_triple_refuted.

(** A note of a chord is not itself among the elements of the ottava over the
    chord: under an ottava that does not transpose it comes back in another octave. *)
Theorem C102_chord_refuted : exists o o' p, readOttava (writeOttava o) = Some o' /\
  sounds [o] p = 5%Z /\ sounds [o'] (readPitch (writePitch [] p)) = 6%Z.
Proof. exists (mkO O8va false), (mkO O8va true), (mkP "C" (Some 5%Z) None). repeat split. Qed.
Print Assumptions C102_chord_refuted.

(** Vertical positions. *)

Lemma index_nth k : k < 7 -> index_of (nth k step_names "?"%char) step_names = Some k.
Proof. intros H. do 7 (destruct k as [|k]; [reflexivity|]). lia. Qed.
Lemma span_minus d : forallb is_digit d = true -> span (fun x => Ascii.eqb x "-") d = ([], d).
Proof. destruct d as [|c d]; [reflexivity|]. cbn [forallb]. intros H. apply andb_prop in H. destruct H as [H _]. cbn [span]. rewrite (digit_not_minus _ H). reflexivity. Qed.
Lemma name_of c o : (0 <= o)%Z -> m21PitchName (c :: show_Z o) = Some (to_upper c, o).
Proof.
  intros H. assert (E : show_Z o = show_N (Z.to_N o)) by (destruct o; [reflexivity|reflexivity|lia]).
  unfold m21PitchName. rewrite E, span_minus by apply show_N_digits.
  destruct (show_N_cons (Z.to_N o)) as (x & t & X & _). rewrite X, <- X, show_N_digits, parse_show_N, Z2N.id by exact H. reflexivity.
Qed.

(** An unpitched note from C0 up keeps its place. *)
Theorem C103_unpitched : forall s o, In s step_names -> (0 <= o)%Z ->
  exists loc, writeLoc s o = Some loc /\ m21PitchName (readLoc loc) = Some (s, o).
Proof.
  intros s o ST O.
  assert (K : exists k, k < 7 /\ s = nth k step_names "?"%char).
  { cbn [In step_names] in ST. destruct ST as [<-|[<-|[<-|[<-|[<-|[<-|[<-|[]]]]]]]];
    [exists 0|exists 1|exists 2|exists 3|exists 4|exists 5|exists 6]; (split; [lia|reflexivity]). }
  destruct K as (k & K & ->). unfold writeLoc, pitchToBase7. rewrite index_nth by exact K. cbn [option_map].
  eexists. split; [reflexivity|]. unfold readLoc.
  set (z := (Z.of_nat k + 7 * o - 30)%Z). destruct (show_Z_ne z) as (c & t & E). rewrite E, <- E, parse_show_Z.
  unfold base7ToDisplayName. replace (z + 30)%Z with (Z.of_nat k + o * 7)%Z by (unfold z; lia).
  rewrite Z.mod_add, Z.div_add by lia. rewrite Z.mod_small, Z.div_small by lia. rewrite Nat2Z.id, Z.add_0_l.
  rewrite name_of by exact O. f_equal. f_equal. do 7 (destruct k as [|k]; [reflexivity|]). lia.
Qed.
Print Assumptions C103_unpitched.
Example C103_unpitched_nonvacuous : writeLoc "D" 4 = Some (S_ "-1") /\ readLoc (S_ "-1") = S_ "D4".
Proof. split; reflexivity. Qed.

(** A rest keeps its place if the last clef is one for pitches (or there is none,
    or it has no lowest line and no clef for pitches came before) and the place is
    from C0 up. *)
Theorem C103_rest_partial : forall clefs shift,
  match clefs with c :: _ => c_pitch c = true | [] => True end ->
  (1 <= lowestLine (hd_error clefs) + 4 + shift)%Z ->
  readRest clefs (writeRest clefs shift) = Some shift.
Proof.
  intros clefs shift C P. unfold writeRest. destruct (shift =? 0)%Z eqn:S0; [apply Z.eqb_eq in S0; subst; reflexivity|].
  assert (F : find c_pitch clefs = hd_error clefs) by (destruct clefs; [reflexivity|cbn; rewrite C; reflexivity]).
  rewrite F. set (n := (lowestLine _ + 4 + shift)%Z) in *.
  unfold readRest. destruct (show_Z_ne ((n - 1) / 7)) as (c & t & E). rewrite E, <- E. cbn [app].
  rewrite name_of by (apply Z.div_pos; lia).
  assert (M : (0 <= (n - 1) mod 7 < 7)%Z) by (apply Z.mod_pos_bound; lia).
  set (k := Z.to_nat ((n - 1) mod 7)). assert (K : k < 7) by lia.
  replace (to_upper (to_lower (nth k step_names "?"%char))) with (nth k step_names "?"%char)
    by (clearbody k; do 7 (destruct k as [|k]; [reflexivity|]); lia).
  unfold pitchToBase7. rewrite index_nth by exact K. cbn [option_map]. f_equal.
  pose proof (Z.div_mod (n - 1) 7 ltac:(lia)). assert (Z.of_nat k = (n - 1) mod 7)%Z by lia.
  fold n in P. unfold n in *. lia.
Qed.
Print Assumptions C103_rest_partial.
Example C103_rest_nonvacuous : writeRest [mkC true (Some 19%Z)] 3 = Some (S_ "g", S_ "3") /\
  readRest [mkC true (Some 19%Z)] (Some (S_ "g", S_ "3")) = Some 3%Z.
Proof. split; reflexivity. Qed.

(** Under a percussion clef that comes after a bass clef, a rest is moved. *)
Theorem C103_rest_refuted : exists clefs shift,
  lowestLine (hd_error clefs) = 31%Z /\ shift = 2%Z /\ readRest clefs (writeRest clefs shift) = Some (-10)%Z.
Proof. exists [mkC false (Some 31%Z); mkC true (Some 19%Z)], 2%Z. repeat split. Qed.
Print Assumptions C103_rest_refuted.

(** Below C0 it is moved too: the minus sign of the octave is read as a flat. *)
Theorem C103_low_refuted : exists s o loc, In s step_names /\ writeLoc s o = Some loc /\
  m21PitchName (readLoc loc) <> Some (s, o).
Proof. exists "B"%char, (-1)%Z, (S_ "-31"). split; [right; right; right; right; right; right; left; reflexivity|]. split; [reflexivity|]. vm_compute. discriminate. Qed.
Print Assumptions C103_low_refuted.

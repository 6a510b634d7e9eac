(** C161: beams read as tremolos take the same time and stand for the same notes. *)
From Coq Require Import List Arith NArith ZArith QArith Qround Lia Lqa Bool.
From Verif Require Import BeamTremModel BeamTremProofs.
Import ListNotations.
Local Close Scope Q_scope.

(** ** What a reader of the music relies on, apart from the model *)

(** The time the notes take as they are written. *)
Definition written (l : list bnote) : Q := fold_right (fun n q => (b_dur n + q)%Q) 0%Q l.
(** A quarter divided by two, [j] times. *)
Definition half_to (j : nat) : Q := (/ inject_Z (2 ^ Z.of_nat j))%Q.
(** A note that looks like [v] quarters, dots included, has [f] flags. *)
Definition flags (v : Q) (f : nat) : Prop :=
  (f = 0 /\ (1 <= v)%Q) \/ (1 <= f /\ (half_to f <= v)%Q /\ (v < 2 * half_to f)%Q).
(** A note that looks like [v] with [k] slashes is played in notes of [d]: each slash, like
    each flag, halves; no more than 8 slashes can be written. *)
Definition slashed (v : Q) (k : Z) (d : Q) : Prop :=
  exists f k', flags v f /\ k = Z.of_nat k' /\ k' <= 8 /\ (d == half_to (f + k'))%Q.
(** The marks stand for the chords of pitches, each of duration [d]. *)
Inductive stands (d : Q) : list tmark -> list (list Z) -> Prop :=
| st_nil : stands d [] []
| st_plain : forall p ms ps, stands d ms ps -> stands d (Plain :: ms) (p :: ps)
| st_trem : forall v k n p ms ps, (v == d * inject_Z (Z.of_nat (S n)))%Q -> slashed v k d ->
    stands d ms ps -> stands d (Trem v k :: repeat Hidden n ++ ms) (repeat p (S n) ++ ps)
| st_trem2 : forall v b m p q, (v == d * inject_Z (Z.of_nat (2 * m)))%Q -> 1 <= m -> 1 <= b <= 8 ->
    (d == half_to b)%Q ->
    stands d (Trem2 v (Z.of_nat b) :: repeat Hidden (2 * m - 2) ++ [Aux v]) (concat (repeat [p; q] m)).

(** ** Lemmas *)
Lemma half_pos : forall j, (0 < half_to j)%Q.
Proof.
  intro j. unfold half_to. apply Qinv_lt_0_compat. change 0%Q with (inject_Z 0). rewrite <- Zlt_Qlt.
  apply Z.pow_pos_nonneg; lia.
Qed.
Lemma pow_pos : forall j, (0 < 2 ^ Z.of_nat j)%Z.
Proof. intro j. apply Z.pow_pos_nonneg; lia. Qed.
Lemma pow_q : forall j, ~ (inject_Z (2 ^ Z.of_nat j) == 0)%Q.
Proof.
  intros j H. pose proof (pow_pos j) as P. rewrite Zlt_Qlt in P. rewrite H in P. apply (Qlt_irrefl _ P).
Qed.
Lemma nat_pow : forall i, Z.of_nat (2 ^ i) = (2 ^ Z.of_nat i)%Z.
Proof. intro i. rewrite Nat2Z.inj_pow. reflexivity. Qed.
Lemma half_mult : forall i j, i <= j -> (half_to j * inject_Z (Z.of_nat (2 ^ i)) == half_to (j - i))%Q.
Proof.
  intros i j H. unfold half_to. rewrite nat_pow.
  replace (2 ^ Z.of_nat j)%Z with (2 ^ Z.of_nat i * 2 ^ Z.of_nat (j - i))%Z
    by (rewrite <- Z.pow_add_r by lia; f_equal; lia).
  rewrite inject_Z_mult. field. split; apply pow_q.
Qed.
Lemma tlog2_half : forall j x, (x == half_to j)%Q -> tlog2 x = (- Z.of_nat j)%Z.
Proof.
  intros j x H. rewrite (tlog2_inv (2 ^ Z.of_nat j)) by (try apply pow_pos; exact H).
  rewrite Z.log2_pow2 by lia. reflexivity.
Qed.
Lemma flags_half : forall v f, (v == half_to f)%Q -> flags v f.
Proof.
  intros v f H. pose proof (half_pos f) as P. destruct f as [|f].
  - left. split; [reflexivity|]. rewrite H. unfold half_to. cbn. lra.
  - right. split; [lia|]. rewrite H. split; lra.
Qed.

Lemma written_adv : forall l now, (adv now l == now + written l)%Q.
Proof.
  induction l as [|n l IH]; intro now; cbn.
  - ring.
  - change (fold_left (fun q m => (q + b_dur m)%Q) l (now + b_dur n)%Q) with (adv (now + b_dur n)%Q l).
    rewrite IH. unfold written. ring.
Qed.

Lemma beam_notes_map : forall l, beam_notes (map BN l) = l.
Proof. induction l as [|n l IH]; cbn; [reflexivity|]. f_equal. exact IH. Qed.

Lemma durations : forall a rest,
  existsb b_cont (a :: rest) || existsb b_tie rest
    || existsb (fun n => negb (Qeq_bool (b_dur n) (b_dur a))) rest = false ->
  Forall (fun n => (b_dur n == b_dur a)%Q) (a :: rest).
Proof.
  intros a rest H. apply orb_false_iff in H as [_ H]. apply existsb_false in H.
  constructor; [reflexivity|]. eapply Forall_impl; [|exact H]. cbn. intros n Hn.
  apply negb_false_iff in Hn. apply Qeq_bool_iff. exact Hn.
Qed.

(** ** The time *)
(** Whatever becomes of the notes of a beam without rests: what is put into the measure
    follows without gap or overlap, from the start of the beam to its end. *)
Theorem C161_time_partial : forall l evs,
  read_beam (map BN l) = Some evs -> chain 0 evs (written l).
Proof.
  intros l evs H. unfold read_beam in H. rewrite beam_notes_map in H.
  destruct (check_tremolo l) as [[ms b]|] eqn:C; [|discriminate]. injection H as <-. rename C into H.
  assert (W : (adv 0 l == written l)%Q) by (rewrite written_adv; ring).
  assert (P : chain 0 (events 0 0 (map BN l) (repeat Plain (List.length l))) (written l))
    by (eapply chain_eq; [apply chain_plain|reflexivity|exact W]).
  unfold check_tremolo in H. destruct l as [|a rest]; [injection H as <- _; exact P|].
  destruct (Qeq_bool (b_dur a) 0) eqn:E0; [injection H as <- _; exact P|].
  match type of H with context [if ?b then _ else _] => destruct b eqn:E1 end; [injection H as <- _; exact P|].
  apply durations in E1. set (d := b_dur a) in *. set (l := a :: rest) in *.
  destruct (forallb (fun b => b) (next_same l)) eqn:E2.
  { unfold bowed in H. set (n := List.length l) in *. cbv zeta in H.
    match type of H with context [if ?b then None else Some ?ms] => destruct b end; [injection H as <- _; exact P|].
    injection H as <- _. eapply chain_eq; [|reflexivity|exact W].
    rewrite <- (app_nil_r l) at 1.
    match goal with |- chain _ (events _ _ _ ?ms) _ => rewrite <- (app_nil_r ms) end.
    apply (chain_group l d); [discriminate|exact E1|reflexivity|].
    intros now' _ ->. constructor. reflexivity. }
  destruct (internal (next_same l) && forallb (fun g => pow2 (List.length g)) (groups l)) eqn:E3.
  { injection H as <- _. eapply chain_eq; [|reflexivity|exact W].
    assert (K : Forall (fun n => (b_dur n == d)%Q) (concat (groups l))) by (rewrite groups_concat; exact E1).
    pose proof (chain_groups (groups l) d 0%Q 0%Q (groups_nonempty l) K) as G.
    rewrite groups_concat in G. exact G. }
  destruct (List.length l <? 3) eqn:E4; [injection H as <- _; exact P|].
  destruct (negb (alternates l)) eqn:E5; [injection H as <- _; exact P|].
  destruct (- tlog2 d <=? 0)%Z eqn:E6; [discriminate|]. injection H as <- _.
  apply Nat.ltb_ge in E4.
  destruct (exists_last (l := rest)) as (mid & z & Er); [intro Er; subst rest; cbn in E4; lia|].
  assert (Hw : (written l == d * q_of (List.length l))%Q).
  { rewrite <- W. rewrite (adv_same l d 0 E1). ring. }
  eapply chain_eq; [|reflexivity|exact (Qeq_sym _ _ Hw)]. clear Hw.
  unfold l at 1. cbn [map events lasts]. rewrite Er, map_app.
  replace (List.length (mid ++ [z]) - 1) with (List.length mid) by (rewrite app_length; cbn; lia).
  rewrite events_hidden. cbn [map events lasts].
  change (S (List.length (mid ++ [z]))) with (List.length (a :: mid ++ [z])). rewrite <- Er. fold l.
  set (v := (d * q_of (List.length l))%Q).
  constructor; [reflexivity|]. constructor; [reflexivity|]. constructor.
  field.
Qed.
Print Assumptions C161_time_partial.

(** ** The notes *)
Lemma same_repeat : forall l, same_pitches l -> exists p, map b_pitches l = repeat p (List.length l).
Proof.
  intros l [p H]. exists p. induction H as [|n l Hn H IH]; cbn; [reflexivity|]. rewrite Hn. f_equal. exact IH.
Qed.

Lemma bowed_stands : forall d j n p ms, (d == half_to j)%Q -> j <= 8 -> 1 <= n ->
  ((1 <= d * inject_Z (Z.of_nat n))%Q \/ exists i, n = 2 ^ i) ->
  bowed d n = Some ms -> stands d ms (repeat p n).
Proof.
  intros d j n p ms Hd Hj Hn Hc H. unfold bowed in H. cbv zeta in H.
  set (v := (d * q_of n)%Q) in *. change (d * inject_Z (Z.of_nat n))%Q with v in Hc.
  destruct n as [|n]; [lia|].
  assert (Hk : slashed v (- (if (tlog2 v <? 0)%Z then tlog2 d - tlog2 v else tlog2 d)) d).
  { rewrite (tlog2_half j d Hd).
    destruct (Qlt_le_dec v 1) as [L|L].
    - destruct Hc as [Hc|[i Hi]]; [lra|].
      assert (Hij : i < j).
      { destruct (Nat.lt_ge_cases i j) as [K|K]; [exact K|]. exfalso.
        assert (1 <= v)%Q; [|lra]. unfold v, q_of. rewrite Hi, Hd, nat_pow. unfold half_to.
        rewrite Qmult_comm.
        assert (B : (2 ^ Z.of_nat j <= 2 ^ Z.of_nat i)%Z) by (apply Z.pow_le_mono_r; lia).
        rewrite Zle_Qle in B. pose proof (half_pos j) as P. unfold half_to in P.
        apply (Qmult_le_compat_r _ _ (/ inject_Z (2 ^ Z.of_nat j))) in B; [|lra].
        rewrite Qmult_inv_r in B by apply pow_q. exact B. }
      assert (Hv : (v == half_to (j - i))%Q).
      { unfold v, q_of. rewrite Hi, Hd. apply half_mult. lia. }
      rewrite (tlog2_half (j - i) v Hv).
      replace (- Z.of_nat (j - i) <? 0)%Z with true by (symmetry; apply Z.ltb_lt; lia).
      exists (j - i), i. split; [apply flags_half; exact Hv|]. split; [lia|]. split; [lia|].
      replace (j - i + i) with j by lia. exact Hd.
    - pose proof (tlog2_ge v L) as G. replace (tlog2 v <? 0)%Z with false by (symmetry; apply Z.ltb_ge; lia).
      exists 0, j. split; [left; split; [reflexivity|exact L]|]. split; [lia|]. split; [lia|]. exact Hd. }
  match type of H with context [if ?b then None else _] => destruct b end; [discriminate|].
  injection H as <-. cbn [Nat.sub]. rewrite Nat.sub_0_r.
  rewrite <- (app_nil_r (repeat Hidden n)), <- (app_nil_r (repeat p (S n))).
  apply st_trem; [reflexivity|exact Hk|apply st_nil].
Qed.

Lemma group_stands : forall d j gs, (d == half_to j)%Q -> j <= 8 ->
  Forall (fun g => g <> []) gs -> Forall same_pitches gs ->
  Forall (fun g => pow2 (List.length g) = true) gs ->
  Forall (fun g => List.length g <= 2 ^ j) gs ->
  stands d (flat_map (group_marks d) gs) (map b_pitches (concat gs)).
Proof.
  intros d j gs Hd Hj H0 Hs Hp Hl. induction gs as [|g gs IH]; [apply st_nil|].
  inversion H0 as [|? ? H01 H02]; subst. inversion Hs as [|? ? Hs1 Hs2]; subst.
  inversion Hp as [|? ? Hp1 Hp2]; subst. inversion Hl as [|? ? Hl1 Hl2]; subst.
  cbn [flat_map concat]. rewrite map_app.
  destruct (same_repeat g Hs1) as [p Eg]. rewrite Eg.
  destruct (pow2_spec _ Hp1) as [i Hi].
  assert (Hij : i <= j).
  { rewrite Hi in Hl1. apply (Nat.pow_le_mono_r_iff 2); [lia|exact Hl1]. }
  unfold group_marks. set (v := (d * q_of (List.length g))%Q).
  assert (Hv : (v == half_to (j - i))%Q).
  { unfold v, q_of. rewrite Hi, Hd. apply half_mult. exact Hij. }
  assert (Hlog : tlog2 (d / v) = (- Z.of_nat i)%Z).
  { apply tlog2_half. rewrite Hv, Hd. unfold half_to.
    replace (2 ^ Z.of_nat j)%Z with (2 ^ Z.of_nat i * 2 ^ Z.of_nat (j - i))%Z
      by (rewrite <- Z.pow_add_r by lia; f_equal; lia).
    rewrite inject_Z_mult. field. split; apply pow_q. }
  assert (Hk : slashed v (- tlog2 (d / v)) d).
  { rewrite Hlog. exists (j - i), i. split; [apply flags_half; exact Hv|]. split; [lia|]. split; [lia|].
    replace (j - i + i) with j by lia. exact Hd. }
  destruct g as [|n g]; [congruence|]. cbn [List.length Nat.sub]. rewrite Nat.sub_0_r.
  cbn [app]. apply (st_trem d v _ (List.length g) p); [reflexivity|exact Hk|].
  apply IH; assumption.
Qed.

Lemma alternates_spec : forall l, alternates l = true ->
  forall i x y, nth_error l i = Some x -> nth_error l (i + 2) = Some y -> b_pitches x = b_pitches y.
Proof.
  induction l as [|a l IH]; intros H i x y Hx Hy; [destruct i; discriminate|].
  assert (Hl : i + 2 < List.length (a :: l)) by (apply nth_error_Some; congruence).
  destruct l as [|b l]; [cbn in Hl; lia|].
  destruct l as [|c l]; [cbn in Hl; lia|].
  change (alternates (a :: b :: c :: l)) with (pitches_eqb (b_pitches c) (b_pitches a) && alternates (b :: c :: l)) in H.
  apply andb_true_iff in H as [H1 H2]. destruct i as [|i].
  - cbn in Hx, Hy. injection Hx as <-. injection Hy as <-. apply pitches_eqb_eq in H1. congruence.
  - exact (IH H2 i x y Hx Hy).
Qed.
Lemma alternates_pairs : forall m l, List.length l = 2 * S m -> alternates l = true ->
  exists p q, map b_pitches l = concat (repeat [p; q] (S m))
    /\ (forall a b r, l = a :: b :: r -> b_pitches a = p /\ b_pitches b = q).
Proof.
  induction m as [|m IH]; intros l Hl Ha.
  - destruct l as [|a [|b [|c l]]]; cbn in Hl; try lia. exists (b_pitches a), (b_pitches b).
    split; [reflexivity|]. intros a' b' r E. injection E as <- <- <-. split; reflexivity.
  - destruct l as [|a [|b l]]; cbn in Hl; try lia.
    assert (Hl' : List.length l = 2 * S m) by lia.
    destruct l as [|c [|e l]]; cbn in Hl'; try lia.
    change (alternates (a :: b :: c :: e :: l)) with
      (pitches_eqb (b_pitches c) (b_pitches a)
       && (pitches_eqb (b_pitches e) (b_pitches b) && alternates (c :: e :: l))) in Ha.
    apply andb_true_iff in Ha as [H1 Ha]. apply andb_true_iff in Ha as [H2 Ha].
    apply pitches_eqb_eq in H1, H2.
    destruct (IH (c :: e :: l) ltac:(cbn; lia) Ha) as (p & q & E & F).
    destruct (F c e l eq_refl) as [Hc He].
    exists p, q. split.
    + change (repeat [p; q] (S (S m))) with ([p; q] :: repeat [p; q] (S m)). cbn [concat]. rewrite <- E.
      cbn. congruence.
    + intros a' b' r E'. injection E' as <- <- <-. split; congruence.
Qed.

Lemma plain_stands : forall d ps, stands d (repeat Plain (List.length ps)) ps.
Proof. induction ps as [|p ps IH]; cbn; constructor; assumption. Qed.

Lemma run_groups : forall l g, In g (groups l) -> exists u w, l = u ++ g ++ w.
Proof.
  intros l g H. apply in_split in H as (g1 & g2 & E). exists (concat g1), (concat g2).
  rewrite <- (groups_concat l), E, concat_app. reflexivity.
Qed.

(** The marks stand for the notes that are written, if
    - the notes are a quarter divided by two some times (no dots, no tuplets),
    - the same notes all along: they take at least a quarter, or there are 2, 4, 8, ...;
    - else: no run of the same note takes more than a quarter, and two notes in turn are
      even in number. *)
Theorem C161_notes_partial : forall l j ms b, j <= 8 ->
  Forall (fun n => (b_dur n == half_to j)%Q) l ->
  (same_pitches l -> (1 <= written l)%Q \/ exists i, List.length l = 2 ^ i) ->
  (~ same_pitches l ->
     (forall u g w, l = u ++ g ++ w -> same_pitches g -> (written g <= 1)%Q)
     /\ ((forall i x y, nth_error l i = Some x -> nth_error l (i + 2) = Some y -> b_pitches x = b_pitches y) ->
         Nat.Even (List.length l))) ->
  check_tremolo l = Some (ms, b) ->
  stands (half_to j) ms (map b_pitches l).
Proof.
  intros l j ms b Hj Hd Hs Hn H.
  assert (P : stands (half_to j) (repeat Plain (List.length l)) (map b_pitches l))
    by (rewrite <- (map_length b_pitches); apply plain_stands).
  assert (W : forall g, Forall (fun n => (b_dur n == half_to j)%Q) g -> (written g == half_to j * q_of (List.length g))%Q).
  { intros g Hg. pose proof (adv_same g _ 0%Q Hg) as E. rewrite written_adv in E. lra. }
  unfold check_tremolo in H. destruct l as [|a rest]; [injection H as <- <-; exact P|].
  destruct (Qeq_bool (b_dur a) 0) eqn:E0; [injection H as <- <-; exact P|].
  match type of H with context [if ?b then _ else _] => destruct b eqn:E1 end; [injection H as <- <-; exact P|].
  clear E1. set (d := b_dur a) in *. set (l := a :: rest) in *.
  assert (Hda : (d == half_to j)%Q) by (inversion Hd; assumption).
  assert (ST : forall ms ps, stands d ms ps -> stands (half_to j) ms ps).
  { clear - Hda. intros ms ps S. induction S as [|p ms ps S IH|v k n p ms ps Hv (f & k' & F & K & L & E) S IH|v bb m p q Hv Hm Hb E].
    - apply st_nil.
    - apply st_plain. exact IH.
    - apply st_trem; [rewrite <- Hda; exact Hv| |exact IH].
      exists f, k'. split; [exact F|]. split; [exact K|]. split; [exact L|]. rewrite <- Hda. exact E.
    - apply st_trem2; [rewrite <- Hda; exact Hv|exact Hm|exact Hb|rewrite <- Hda; exact E]. }
  destruct (forallb (fun b => b) (next_same l)) eqn:E2.
  { apply all_same in E2. specialize (Hs E2).
    destruct (bowed d (List.length l)) as [ms'|] eqn:Eb; [|injection H as <- <-; exact P].
    injection H as <- <-. destruct (same_repeat l E2) as [p Ep]. rewrite Ep. apply ST.
    apply (bowed_stands d j); [exact Hda|exact Hj|cbn; lia| |exact Eb].
    destruct Hs as [Hs|Hs]; [left|right; exact Hs]. rewrite (W l Hd) in Hs. rewrite Hda. exact Hs. }
  assert (NS : ~ same_pitches l) by (intro K; apply all_same_conv in K; congruence).
  destruct (Hn NS) as [Hrun Heven].
  destruct (internal (next_same l) && forallb (fun g => pow2 (List.length g)) (groups l)) eqn:E3.
  { injection H as <- <-. apply andb_true_iff in E3 as [_ E3].
    apply ST. enough (G : stands d (flat_map (group_marks d) (groups l)) (map b_pitches (concat (groups l))))
      by (rewrite groups_concat in G; exact G).
    apply (group_stands d j); [exact Hda|exact Hj| | | |].
    - apply groups_nonempty.
    - apply groups_same.
    - apply Forall_forall. intros g Hg. exact (proj1 (forallb_forall _ _) E3 g Hg).
    - apply Forall_forall. intros g Hg. destruct (run_groups l g Hg) as (u & w & E).
      pose proof (Hrun u g w E (proj1 (Forall_forall _ _) (groups_same l) g Hg)) as R.
      assert (Hdg : Forall (fun n => (b_dur n == half_to j)%Q) g).
      { rewrite E in Hd. apply Forall_app in Hd as [_ Hd]. apply Forall_app in Hd as [Hd _]. exact Hd. }
      rewrite (W g Hdg) in R. unfold half_to, q_of in R.
      pose proof (half_pos j) as HP. unfold half_to in HP.
      assert (Pq : (0 < inject_Z (2 ^ Z.of_nat j))%Q)
        by (change 0%Q with (inject_Z 0); rewrite <- Zlt_Qlt; apply pow_pos).
      apply (Qmult_le_compat_r _ _ (inject_Z (2 ^ Z.of_nat j))) in R; [|lra].
      assert (R' : (inject_Z (Z.of_nat (List.length g)) <= inject_Z (2 ^ Z.of_nat j))%Q).
      { revert R. generalize (inject_Z (Z.of_nat (List.length g))). intros q R.
        rewrite Qmult_1_l in R.
        assert (E' : (/ inject_Z (2 ^ Z.of_nat j) * q * inject_Z (2 ^ Z.of_nat j) == q)%Q)
          by (field; apply pow_q). rewrite E' in R. exact R. }
      rewrite <- Zle_Qle in R'. rewrite <- nat_pow in R'. lia. }
  destruct (List.length l <? 3) eqn:E4; [injection H as <- <-; exact P|].
  destruct (negb (alternates l)) eqn:E5; [injection H as <- <-; exact P|].
  destruct (- tlog2 d <=? 0)%Z eqn:E6; [discriminate|]. injection H as <- <-.
  apply negb_false_iff in E5. apply Nat.ltb_ge in E4. apply Z.leb_gt in E6.
  destruct (Heven (alternates_spec l E5)) as [m Hm]. destruct m as [|m]; [lia|].
  destruct (alternates_pairs m l ltac:(lia) E5) as (p & q & Ep & _). rewrite Ep. apply ST.
  rewrite (tlog2_half j d Hda) in E6 |- *. rewrite Z.opp_involutive.
  change (List.length l) with (S (List.length rest)) in Hm.
  replace (S (List.length rest)) with (2 * S m) by lia.
  replace (List.length rest - 1) with (2 * S m - 2) by lia.
  apply st_trem2; [|lia|lia|exact Hda]. reflexivity.
Qed.
Print Assumptions C161_notes_partial.

Definition sixteenth (p : Z) : bnote := BNote (1 # 4) [p] false false.
Lemma sixteenths : forall ps, Forall (fun n => (b_dur n == half_to 2)%Q) (map sixteenth ps).
Proof. induction ps as [|p ps IH]; constructor; [reflexivity|exact IH]. Qed.
Example C161_time_nonvacuous :
  let l := map sixteenth [162; 162; 162; 162; 168; 168]%Z in
  check_tremolo l = Some ([Trem (4 # 4) 2; Hidden; Hidden; Hidden; Trem (2 # 4) 1; Hidden], false)
  /\ exists evs, read_beam (map BN l) = Some evs /\ List.length evs = 2 /\ (written l == 6 # 4)%Q.
Proof.
  split; [vm_compute; reflexivity|]. eexists. split; [vm_compute; reflexivity|]. split; [reflexivity|]. vm_compute. reflexivity.
Qed.
Example C161_notes_nonvacuous :
  let l := map sixteenth [162; 168; 162; 168]%Z in
  check_tremolo l = Some ([Trem2 (4 # 4) 2; Hidden; Hidden; Aux (4 # 4)], true)
  /\ stands (half_to 2) [Trem2 (4 # 4) 2; Hidden; Hidden; Aux (4 # 4)] [[162]; [168]; [162]; [168]]%Z.
Proof.
  cbv zeta. assert (C : check_tremolo (map sixteenth [162; 168; 162; 168]%Z)
    = Some ([Trem2 (4 # 4) 2; Hidden; Hidden; Aux (4 # 4)], true)) by (vm_compute; reflexivity).
  split; [exact C|]. apply (C161_notes_partial _ 2 _ _ ltac:(lia) (sixteenths _)) in C; [exact C| |].
  - intros _. right. exists 2. reflexivity.
  - intros _. split; [|intros _; exists 2; reflexivity].
    intros u g w E _.
    assert (Hl : List.length g <= 4).
    { apply (f_equal (@List.length _)) in E. rewrite !app_length in E. cbn in E. lia. }
    assert (Hd : Forall (fun n => (b_dur n == half_to 2)%Q) g).
    { pose proof (sixteenths [162; 168; 162; 168]%Z) as K. rewrite E in K.
      apply Forall_app in K as [_ K]. apply Forall_app in K as [K _]. exact K. }
    pose proof (adv_same g _ 0%Q Hd) as K. rewrite written_adv in K.
    assert (K' : (q_of (List.length g) <= 4)%Q).
    { unfold q_of. change 4%Q with (inject_Z 4). rewrite <- Zle_Qle. lia. }
    assert (H2 : (half_to 2 == 1 # 4)%Q) by reflexivity. rewrite H2 in K. lra.
Qed.

(** ** What is found *)
(** The same chord all along, 2, 4, 8, ... times, each a quarter divided by two some times,
    without ties: one note with slashes, that stands for all of them. *)
Theorem C161_repeated : forall l j i, 1 <= i -> 1 <= j <= 8 ->
  Forall (fun n => (b_dur n == half_to j)%Q) l -> List.length l = 2 ^ i -> same_pitches l ->
  Forall (fun n => b_cont n = false /\ b_tie n = false) l ->
  exists v k, check_tremolo l = Some (Trem v k :: repeat Hidden (2 ^ i - 1), true)
    /\ (v == written l)%Q /\ slashed v k (half_to j) /\ (1 <= k)%Z.
Proof.
  intros l j i Hi Hj Hd Hl Hs Ht.
  assert (C : exists v k, check_tremolo l = Some (Trem v k :: repeat Hidden (2 ^ i - 1), true)
    /\ (v == written l)%Q /\ (1 <= k)%Z).
  { destruct l as [|a rest]; [cbn in Hl; pose proof (Nat.pow_nonzero 2 i); lia|].
    set (l := a :: rest) in *.
    assert (Hda : (b_dur a == half_to j)%Q) by (inversion Hd; assumption).
    assert (W : (b_dur a * q_of (List.length l) == written l)%Q).
    { pose proof (adv_same l _ 0%Q Hd) as E. rewrite written_adv in E. rewrite Hda. lra. }
    unfold check_tremolo. cbv zeta. unfold l at 1. cbn iota beta.
    replace (Qeq_bool (b_dur a) 0) with false.
    2: { symmetry. apply not_true_iff_false. intro E. apply Qeq_bool_iff in E. pose proof (half_pos j). lra. }
    assert (E1 : existsb b_cont l = false).
    { apply not_true_iff_false. intro E. apply existsb_exists in E as (x & Hx & E).
      destruct (proj1 (Forall_forall _ _) Ht x Hx). congruence. }
    assert (E2 : existsb b_tie rest = false).
    { apply not_true_iff_false. intro E. apply existsb_exists in E as (x & Hx & E).
      destruct (proj1 (Forall_forall _ _) Ht x (or_intror Hx)). congruence. }
    assert (E3 : existsb (fun n => negb (Qeq_bool (b_dur n) (b_dur a))) rest = false).
    { apply not_true_iff_false. intro E. apply existsb_exists in E as (x & Hx & E).
      pose proof (proj1 (Forall_forall _ _) Hd x (or_intror Hx)) as K. cbn in K.
      apply negb_true_iff, Qeq_bool_neq in E. apply E. rewrite K, Hda. reflexivity. }
    rewrite E1, E2, E3. cbn [orb]. rewrite (all_same_conv l Hs). rewrite Hl in W |- *.
    unfold bowed. cbv zeta. set (v := (b_dur a * q_of (2 ^ i))%Q) in *.
    rewrite (tlog2_half j (b_dur a) Hda).
    assert (Hk : (1 <= - (if (tlog2 v <? 0)%Z then - Z.of_nat j - tlog2 v else - Z.of_nat j))%Z).
    { destruct (Nat.le_gt_cases j i) as [K|K].
      - assert (Hv : (1 <= v)%Q).
        { unfold v, q_of. rewrite Hda, nat_pow. unfold half_to. rewrite Qmult_comm.
          assert (B : (2 ^ Z.of_nat j <= 2 ^ Z.of_nat i)%Z) by (apply Z.pow_le_mono_r; lia).
          rewrite Zle_Qle in B. pose proof (half_pos j) as P. unfold half_to in P.
          apply (Qmult_le_compat_r _ _ (/ inject_Z (2 ^ Z.of_nat j))) in B; [|lra].
          rewrite Qmult_inv_r in B by apply pow_q. exact B. }
        apply tlog2_ge in Hv. replace (tlog2 v <? 0)%Z with false by (symmetry; apply Z.ltb_ge; lia). lia.
      - assert (Hv : (v == half_to (j - i))%Q) by (unfold v, q_of; rewrite Hda; apply half_mult; lia).
        rewrite (tlog2_half _ _ Hv). replace (- Z.of_nat (j - i) <? 0)%Z with true by (symmetry; apply Z.ltb_lt; lia).
        lia. }
    match goal with |- context [(?k <=? 0)%Z] => set (kk := k) in * end.
    replace (kk <=? 0)%Z with false by (symmetry; apply Z.leb_gt; lia).
    exists v, kk. split; [reflexivity|]. split; [exact W|exact Hk]. }
  destruct C as (v & k & C & Hv & Hk). exists v, k. split; [exact C|]. split; [exact Hv|]. split; [|exact Hk].
  apply (C161_notes_partial l j) in C; [|lia|exact Hd|right; exists i; exact Hl|intro K; contradiction].
  inversion C as [| |v' k' n p ms ps Hv' Hsl Hst E1 E2|]; subst. exact Hsl.
Qed.
Print Assumptions C161_repeated.
Example C161_repeated_nonvacuous :
  check_tremolo (map sixteenth [162; 162]%Z) = Some ([Trem (2 # 4) 1; Hidden], true)
  /\ check_tremolo (map sixteenth [162; 162; 162; 162; 162; 162; 162; 162]%Z)
     = Some (Trem (8 # 4) 2 :: repeat Hidden 7, true).
Proof. split; vm_compute; reflexivity. Qed.

(** A tie that goes on, a tie at another note than the first, different durations or grace
    notes: every note stays as it is written. *)
Theorem C161_untouched : forall l,
  (exists n, In n l /\ b_cont n = true)
  \/ (exists a r n, l = a :: r /\ In n r /\ (b_tie n = true \/ ~ (b_dur n == b_dur a)%Q))
  \/ (exists n, In n l /\ (b_dur n == 0)%Q) ->
  check_tremolo l = Some (repeat Plain (List.length l), false).
Proof.
  intros l H. unfold check_tremolo. destruct l as [|a rest]; [reflexivity|].
  destruct (Qeq_bool (b_dur a) 0) eqn:E0; [reflexivity|].
  match goal with |- context [if ?b then _ else _] => enough (E : b = true) by (rewrite E; reflexivity) end.
  destruct H as [(n & Hn & Hc)|[(a' & r & n & E & Hn & Hc)|(n & Hn & Hc)]].
  - replace (existsb b_cont (a :: rest)) with true by (symmetry; apply existsb_exists; exists n; auto). reflexivity.
  - injection E as <- <-. destruct Hc as [Hc|Hc].
    + replace (existsb b_tie rest) with true by (symmetry; apply existsb_exists; exists n; auto).
      rewrite orb_true_r. reflexivity.
    + match goal with |- _ || ?b = true => replace b with true end; [apply orb_true_r|].
      symmetry. apply existsb_exists. exists n. split; [exact Hn|]. apply negb_true_iff.
      apply not_true_iff_false. intro K. apply Qeq_bool_iff in K. contradiction.
  - destruct Hn as [<-|Hn].
    { apply Qeq_bool_iff in Hc. congruence. }
    match goal with |- _ || ?b = true => replace b with true end; [apply orb_true_r|].
    symmetry. apply existsb_exists. exists n. split; [exact Hn|]. apply negb_true_iff.
    apply not_true_iff_false. intro K. apply Qeq_bool_iff in K. rewrite Hc in K.
    apply Qeq_sym, Qeq_bool_iff in K. congruence.
Qed.
Print Assumptions C161_untouched.
Example C161_untouched_nonvacuous :
  check_tremolo [sixteenth 162; BNote (1 # 4) [162]%Z true false] = Some ([Plain; Plain], false)
  /\ check_tremolo [BNote (1 # 4) [162]%Z true false; sixteenth 162] = Some ([Trem (2 # 4) 1; Hidden], true).
Proof. split; vm_compute; reflexivity. Qed.

(** Reading goes on if no note is longer than an eighth. *)
Theorem C161_reads_partial : forall l,
  Forall (fun n => 0 <= b_dur n /\ b_dur n <= 1 # 2)%Q l -> exists ms b, check_tremolo l = Some (ms, b).
Proof.
  intros l H. unfold check_tremolo. destruct l as [|a rest]; [eexists _, _; reflexivity|].
  destruct (Qeq_bool (b_dur a) 0) eqn:E0; [eexists _, _; reflexivity|].
  match goal with |- context [if ?b then _ else _] => destruct b end; [eexists _, _; reflexivity|].
  cbv zeta. destruct (forallb (fun b => b) (next_same (a :: rest))).
  { destruct (bowed (b_dur a) (List.length (a :: rest))); eexists _, _; reflexivity. }
  match goal with |- context [if ?b then _ else _] => destruct b end; [eexists _, _; reflexivity|].
  destruct (List.length (a :: rest) <? 3); [eexists _, _; reflexivity|].
  destruct (negb (alternates (a :: rest))); [eexists _, _; reflexivity|].
  replace (- tlog2 (b_dur a) <=? 0)%Z with false; [eexists _, _; reflexivity|].
  symmetry. apply Z.leb_gt. unfold tlog2.
  inversion H as [|? ? [H1 H2] _]; subst. set (d := b_dur a) in *.
  assert (Hd : ~ (d == 0)%Q) by (intro K; apply Qeq_bool_iff in K; congruence).
  destruct (Qle_bool 1 d) eqn:E; [apply Qle_bool_iff in E; lra|].
  assert (H3 : (0 < d)%Q) by (destruct (Qlt_le_dec 0 d) as [K|K]; [exact K|exfalso; apply Hd; lra]).
  assert (H4 : (2 <= Qfloor (1 / d))%Z).
  { change 2%Z with (Qfloor (inject_Z 2)). apply Qfloor_resp_le.
    apply Qle_shift_div_l; [exact H3|]. change (inject_Z 2) with 2%Q. lra. }
  pose proof (Z.log2_le_mono 2 _ H4) as K. change (Z.log2 2) with 1%Z in K. lia.
Qed.
Print Assumptions C161_reads_partial.

(** ** Where it fails *)
(** Two quarters, dotted eighths, ... in turn under one beam: an exception. *)
Theorem C161_reads_refuted : exists l,
  Forall (fun n => b_dur n == 3 # 4)%Q l /\ check_tremolo l = None.
Proof.
  exists (map (fun p => BNote (3 # 4) [p] false false) [162; 168; 162; 168]%Z). split.
  - repeat (constructor; [reflexivity|]). constructor.
  - vm_compute. reflexivity.
Qed.
Print Assumptions C161_reads_refuted.

(** A rest under the beam: the tremolo goes on while the rest is there. *)
Theorem C161_time_refuted : exists l s d r,
  read_beam l = Some [(s, d); r] /\ (fst r < s + d)%Q.
Proof.
  exists [BN (sixteenth 162); BR (1 # 4); BN (sixteenth 162)]. eexists _, _, _.
  split; [vm_compute; reflexivity|]. vm_compute. reflexivity.
Qed.
Print Assumptions C161_time_refuted.

Lemma half_S : forall f, (half_to (S f) == half_to f * (1 # 2))%Q.
Proof.
  intro f. pose proof (half_mult 1 (S f) ltac:(lia)) as H. cbn [Nat.sub] in H. rewrite Nat.sub_0_r in H.
  rewrite <- H. change (inject_Z (Z.of_nat (2 ^ 1))) with 2%Q. ring.
Qed.
Lemma half_le : forall f, (half_to f <= 1)%Q.
Proof.
  induction f as [|f IH]; [discriminate|]. rewrite half_S. pose proof (half_pos f). lra.
Qed.

(** Three sixteenths: a dotted eighth with two slashes, that is, six notes. *)
Theorem C161_notes_dotted_refuted : exists l v k,
  Forall (fun n => (b_dur n == half_to 2)%Q) l /\ same_pitches l
  /\ check_tremolo l = Some (Trem v k :: repeat Hidden 2, true) /\ slashed v k (half_to 3)
  /\ ~ slashed v k (half_to 2).
Proof.
  exists (map sixteenth [162; 162; 162]%Z), (3 # 4)%Q, 2%Z. split; [apply sixteenths|].
  split; [exists [162%Z]; repeat (constructor; [reflexivity|]); constructor|].
  split; [vm_compute; reflexivity|]. split.
  - exists 1, 2. split; [right; split; [lia|]; split; [discriminate|reflexivity]|].
    split; [reflexivity|]. split; [lia|]. reflexivity.
  - intros (f & k' & F & K & _ & E). assert (k' = 2) by lia. subst k'.
    destruct F as [[-> F]|(F1 & _ & F2)]; [apply Qle_bool_iff in F; vm_compute in F; discriminate|].
    destruct f as [|[|f]]; [lia|vm_compute in E; discriminate|].
    pose proof (half_le f) as L. rewrite !half_S in F2. lra.
Qed.
Print Assumptions C161_notes_dotted_refuted.

(** Eight sixteenths and eight other sixteenths under one beam: half notes with three
    slashes, that is, sixteen notes each. *)
Theorem C161_notes_long_refuted : exists l v k,
  Forall (fun n => (b_dur n == half_to 2)%Q) l
  /\ check_tremolo l = Some ((Trem v k :: repeat Hidden 7) ++ (Trem v k :: repeat Hidden 7), false)
  /\ slashed v k (half_to 3) /\ ~ slashed v k (half_to 2).
Proof.
  exists (map sixteenth (repeat 162 8 ++ repeat 168 8)%Z), (8 # 4)%Q, 3%Z. split; [apply sixteenths|].
  split; [vm_compute; reflexivity|]. split.
  - exists 0, 3. split; [left; split; [reflexivity|discriminate]|]. split; [reflexivity|]. split; [lia|]. reflexivity.
  - intros (f & k' & F & K & _ & E). assert (k' = 3) by lia. subst k'.
    destruct F as [[-> F]|(F1 & _ & F2)]; [vm_compute in E; discriminate|].
    destruct f as [|f]; [lia|].
    pose proof (half_le f) as L. rewrite half_S in F2. lra.
Qed.
Print Assumptions C161_notes_long_refuted.

(** Two notes in turn, three of them: both notes of the tremolo are the first one; the other
    note is not there any more. *)
Theorem C161_notes_odd_refuted : exists l ms n,
  Forall (fun x => (b_dur x == half_to 2)%Q) l /\ In n l /\ check_tremolo l = Some (ms, true)
  /\ forall i m x, nth_error ms i = Some m -> nth_error l i = Some x -> m <> Hidden ->
       b_pitches x <> b_pitches n.
Proof.
  exists (map sixteenth [162; 168; 162]%Z), [Trem2 (3 # 4) 2; Hidden; Aux (3 # 4)], (sixteenth 168).
  split; [apply sixteenths|]. split; [right; left; reflexivity|]. split; [vm_compute; reflexivity|].
  intros [|[|[|i]]] m x Hm Hx Hh; cbn in Hm, Hx.
  - injection Hx as <-. discriminate.
  - injection Hm as <-. congruence.
  - injection Hx as <-. discriminate.
  - destruct i; discriminate.
Qed.
Print Assumptions C161_notes_odd_refuted.

(** A rest under the beam makes no difference for what becomes of the notes: there is just
    the rest in addition. *)
Lemma events_length : forall l ms now two now' two',
  List.length (events now two l ms) = List.length (events now' two' l ms).
Proof.
  induction l as [|[n|d] l IH]; intros ms now two now' two'; cbn; [reflexivity| |f_equal; apply IH].
  destruct ms as [|m ms]; [reflexivity|]. destruct m; cbn; try (f_equal; apply IH). apply IH.
Qed.
Lemma beam_notes_rest : forall l1 d l2, beam_notes (l1 ++ BR d :: l2) = beam_notes (l1 ++ l2).
Proof. intros. unfold beam_notes. rewrite !flat_map_app. reflexivity. Qed.
Lemma check_length : forall l ms b, check_tremolo l = Some (ms, b) -> List.length ms = List.length l.
Proof.
  intros l ms b H. unfold check_tremolo in H. destruct l as [|a rest]; [injection H as <- _; reflexivity|].
  set (l := a :: rest) in *. cbv zeta in H.
  assert (P : forall b', Some (repeat Plain (List.length l), false) = Some (ms, b') -> List.length ms = List.length l)
    by (intros b' E; injection E as <- _; unfold l; cbn [List.length repeat]; f_equal; apply repeat_length).
  destruct (Qeq_bool (b_dur a) 0); [exact (P _ H)|].
  match type of H with context [if ?b then _ else _] => destruct b end; [exact (P _ H)|].
  destruct (forallb (fun b => b) (next_same l)).
  { destruct (bowed (b_dur a) (List.length l)) as [ms'|] eqn:E; [|exact (P _ H)].
    injection H as <- _. unfold bowed in E. cbv zeta in E.
    match type of E with context [if ?b then _ else _] => destruct b end; [discriminate|].
    injection E as <-. cbn. rewrite repeat_length. lia. }
  match type of H with context [if ?b then _ else _] => destruct b end.
  { injection H as <- _.
    enough (K : List.length (flat_map (group_marks (b_dur a)) (groups l)) = List.length (concat (groups l)))
      by (rewrite groups_concat in K; exact K).
    pose proof (groups_nonempty l) as G. induction G as [|g gs Hg G IH]; [reflexivity|]. cbn [flat_map concat]. rewrite !app_length, IH.
    f_equal. unfold group_marks. cbn. rewrite repeat_length. destruct g; [congruence|]. cbn. lia. }
  destruct (List.length l <? 3) eqn:E3; [exact (P _ H)|]. apply Nat.ltb_ge in E3.
  destruct (negb (alternates l)); [exact (P _ H)|].
  match type of H with context [if ?b then _ else _] => destruct b end; [discriminate|].
  injection H as <- _. change (S (List.length rest)) with (List.length l).
  cbn [List.length]. rewrite app_length, repeat_length. cbn in *. lia.
Qed.
Lemma events_rest_length : forall l1 d l2 ms now two, List.length (beam_notes (l1 ++ l2)) <= List.length ms ->
  List.length (events now two (l1 ++ BR d :: l2) ms) = S (List.length (events now two (l1 ++ l2) ms)).
Proof.
  induction l1 as [|[n|e] l1 IH]; intros d l2 ms now two H; cbn [app events].
  - cbn [List.length]. f_equal. apply events_length.
  - destruct ms as [|m ms]; [cbn in H; lia|]. apply le_S_n in H. cbv zeta.
    destruct m; cbn [List.length]; rewrite IH by exact H; reflexivity.
  - cbn [List.length]. rewrite IH by exact H. reflexivity.
Qed.
Theorem C161_rest_ignored : forall l1 d l2,
  (read_beam (l1 ++ BR d :: l2) = None <-> read_beam (l1 ++ l2) = None)
  /\ forall evs evs', read_beam (l1 ++ BR d :: l2) = Some evs -> read_beam (l1 ++ l2) = Some evs' ->
       List.length evs = S (List.length evs').
Proof.
  intros l1 d l2. unfold read_beam. rewrite beam_notes_rest.
  destruct (check_tremolo (beam_notes (l1 ++ l2))) as [[ms b]|] eqn:C; [|split; [tauto|discriminate]].
  split; [split; discriminate|]. intros evs evs' E E'. injection E as <-. injection E' as <-.
  apply events_rest_length. rewrite (check_length _ _ _ C). reflexivity.
Qed.
Print Assumptions C161_rest_ignored.
Example C161_rest_ignored_nonvacuous :
  (exists evs, read_beam [BN (sixteenth 162); BR (1 # 4); BN (sixteenth 162)] = Some evs /\ List.length evs = 2)
  /\ exists evs, read_beam [BN (sixteenth 162); BN (sixteenth 162)] = Some evs /\ List.length evs = 1.
Proof. split; eexists; (split; [vm_compute; reflexivity|reflexivity]). Qed.

(** Two different chords in turn, an even number of at least four, short enough and without
    ties: one pair of notes. *)
Theorem C161_alternating : forall l j p q m, 2 <= m -> 1 <= j <= 8 -> p <> q ->
  Forall (fun n => (b_dur n == half_to j)%Q) l -> map b_pitches l = concat (repeat [p; q] m) ->
  Forall (fun n => b_cont n = false /\ b_tie n = false) l ->
  exists v, check_tremolo l = Some (Trem2 v (Z.of_nat j) :: repeat Hidden (2 * m - 2) ++ [Aux v], true)
    /\ (v == written l)%Q.
Proof.
  intros l j p q m Hm Hj Hpq Hd Hp Ht.
  assert (Hl : List.length l = 2 * m).
  { rewrite <- (map_length b_pitches), Hp. clear. induction m as [|m IH]; [reflexivity|]. cbn [repeat concat].
    rewrite app_length, IH. cbn. lia. }
  destruct m as [|[|m]]; [lia..|].
  destruct l as [|a rest]; [cbn in Hl; lia|]. set (l := a :: rest) in *.
  assert (Hda : (b_dur a == half_to j)%Q) by (inversion Hd; assumption).
  assert (W : (b_dur a * q_of (List.length l) == written l)%Q).
  { pose proof (adv_same l _ 0%Q Hd) as E. rewrite written_adv in E. rewrite Hda. lra. }
  assert (NS : forallb (fun b => b) (next_same l) = false /\ nth 0 (next_same l) true = false
               /\ nth 1 (next_same l) true = false /\ 3 <= List.length (next_same l)).
  { rewrite next_same_length. cbn [repeat concat app] in Hp. unfold l in *. destruct rest as [|b [|c rest]]; [discriminate..|].
    cbn [map] in Hp. injection Hp as Ha Hb Hc _.
    assert (Fb : pitches_eqb (b_pitches b) (b_pitches a) = false).
    { apply not_true_iff_false. intro K. apply pitches_eqb_eq in K. congruence. }
    assert (Fc : pitches_eqb (b_pitches c) (b_pitches b) = false).
    { apply not_true_iff_false. intro K. apply pitches_eqb_eq in K. congruence. }
    change (next_same (a :: b :: c :: rest)) with
      (pitches_eqb (b_pitches b) (b_pitches a) :: pitches_eqb (b_pitches c) (b_pitches b) :: next_same (c :: rest)).
    rewrite Fb, Fc. cbn [forallb nth List.length andb]. repeat (split; [reflexivity|]). lia. }
  destruct NS as (NS & N0 & N1 & N3).
  assert (NI : internal (next_same l) = false).
  { unfold internal. apply andb_false_iff. left. apply not_true_iff_false. intro K.
    rewrite forallb_forall in K. specialize (K 1). rewrite in_seq in K. specialize (K ltac:(lia)).
    cbn [Nat.sub] in K. rewrite N0, N1 in K. discriminate. }
  assert (AL : alternates l = true).
  { clear - Hp. revert Hp. generalize l. clear l rest. generalize (S (S m)) as k. intros k.
    assert (G : forall k l, map b_pitches l = concat (repeat [p; q] k) \/ map b_pitches l = q :: concat (repeat [p; q] k)
                -> alternates l = true).
    { clear. intros k l. remember (List.length l) as n eqn:En. revert k l En.
      induction n as [|n IH]; intros k l En H; destruct l as [|x l]; try discriminate; [reflexivity|].
      injection En as En. destruct l as [|y [|z l]]; [reflexivity..|].
      change (alternates (x :: y :: z :: l)) with (pitches_eqb (b_pitches z) (b_pitches x) && alternates (y :: z :: l)).
      destruct H as [H|H].
      - destruct k as [|[|k]]; [discriminate H..|]. cbn [repeat concat app map] in H.
        pose proof H as H'. injection H' as Hx Hy Hz _.
        rewrite (IH (S k) (y :: z :: l) En).
        + rewrite (proj2 (pitches_eqb_eq _ _)); [reflexivity|congruence].
        + right. cbn [map repeat concat app]. injection H as _ H1 H2 H3. congruence.
      - destruct k as [|k]; [discriminate H|]. cbn [repeat concat app map] in H.
        pose proof H as H'. injection H' as Hx Hy Hz _.
        rewrite (IH (S k) (y :: z :: l) En).
        + rewrite (proj2 (pitches_eqb_eq _ _)); [reflexivity|congruence].
        + left. cbn [map repeat concat app]. injection H as _ H1 H2 H3. congruence. }
    intros l Hp. apply (G k). left. exact Hp. }
  exists (b_dur a * q_of (List.length l))%Q. split; [|exact W].
  unfold check_tremolo. cbv zeta. unfold l at 1. cbn iota beta.
  replace (Qeq_bool (b_dur a) 0) with false.
  2: { symmetry. apply not_true_iff_false. intro E. apply Qeq_bool_iff in E. pose proof (half_pos j). lra. }
  assert (E1 : existsb b_cont l = false).
  { apply not_true_iff_false. intro E. apply existsb_exists in E as (x & Hx & E).
    destruct (proj1 (Forall_forall _ _) Ht x Hx). congruence. }
  assert (E2 : existsb b_tie rest = false).
  { apply not_true_iff_false. intro E. apply existsb_exists in E as (x & Hx & E).
    destruct (proj1 (Forall_forall _ _) Ht x (or_intror Hx)). congruence. }
  assert (E3 : existsb (fun n => negb (Qeq_bool (b_dur n) (b_dur a))) rest = false).
  { apply not_true_iff_false. intro E. apply existsb_exists in E as (x & Hx & E).
    pose proof (proj1 (Forall_forall _ _) Hd x (or_intror Hx)) as K. cbn in K.
    apply negb_true_iff, Qeq_bool_neq in E. apply E. rewrite K, Hda. reflexivity. }
  rewrite E1, E2, E3. cbn [orb]. rewrite NS, NI. cbn [andb]. rewrite AL. cbn [negb].
  rewrite (tlog2_half j (b_dur a) Hda), Z.opp_involutive.
  replace (List.length l <? 3) with false by (symmetry; apply Nat.ltb_ge; lia).
  replace (Z.of_nat j <=? 0)%Z with false by (symmetry; apply Z.leb_gt; lia).
  rewrite Hl. reflexivity.
Qed.
Print Assumptions C161_alternating.
Example C161_alternating_nonvacuous :
  check_tremolo (map sixteenth [162; 168; 162; 168; 162; 168]%Z)
  = Some (Trem2 (6 # 4) 2 :: repeat Hidden 4 ++ [Aux (6 # 4)], true).
Proof. vm_compute. reflexivity. Qed.

(** ** Runs of repeated notes under one beam *)
(** Neighbouring runs differ. *)
Fixpoint differ (rs : list (list bnote)) : Prop :=
  match rs with
  | g :: ((h :: _) as r) => (forall x y, In x g -> In y h -> b_pitches x <> b_pitches y) /\ differ r
  | _ => True
  end.
Fixpoint no_two (l : list bool) : bool :=
  match l with
  | a :: ((b :: _) as r) => (a || b) && no_two r
  | _ => true
  end.
Lemma no_two_nth : forall l i, no_two l = true -> nth i l true || nth (S i) l true = true.
Proof.
  induction l as [|a [|b l] IH]; intros i H.
  - destruct i; reflexivity.
  - destruct i as [|[|i]]; cbn; try reflexivity. destruct a; reflexivity.
  - change (no_two (a :: b :: l)) with ((a || b) && no_two (b :: l)) in H. apply andb_true_iff in H as [H1 H2].
    destruct i as [|i]; [exact H1|]. exact (IH i H2).
Qed.
Lemma no_two_internal : forall l, no_two l = true -> 3 <= List.length l -> internal l = true.
Proof.
  intros l H L. unfold internal. apply andb_true_iff. split.
  - apply forallb_forall. intros i Hi. apply in_seq in Hi. destruct i as [|i]; [lia|].
    pose proof (no_two_nth l i H) as A. pose proof (no_two_nth l (S i) H) as B.
    replace (S i - 1) with i by lia. replace (S i + 1) with (S (S i)) by lia.
    destruct (nth (S i) l true); [reflexivity|]. cbn. rewrite orb_false_r in A. rewrite A. exact B.
  - replace (List.length l =? 2) with false by (symmetry; apply Nat.eqb_neq; lia). reflexivity.
Qed.

Lemma group_from_runs : forall g h rs cur a p,
  Forall (fun n => b_pitches n = p) (a :: g) ->
  (match rs with [] => h = [] | r :: _ => exists t, h = t :: match concat rs with [] => [] | _ :: u => u end
       /\ concat rs = t :: match concat rs with [] => [] | _ :: u => u end /\ b_pitches t <> p end) ->
  group_from cur (combine (next_same (a :: g ++ h)) (g ++ h))
  = match h with
    | [] => [cur ++ g]
    | t :: u => (cur ++ g) :: group_from [t] (combine (next_same (t :: u)) u)
    end.
Proof.
  induction g as [|b g IH]; intros h rs cur a p Hg Hh.
  - cbn [app]. rewrite app_nil_r. destruct h as [|t u]; [reflexivity|].
    destruct rs as [|r rs]; [discriminate|]. destruct Hh as (t' & E & _ & N). injection E as -> _.
    change (combine (next_same (a :: t' :: u)) (t' :: u))
      with ((pitches_eqb (b_pitches t') (b_pitches a), t') :: combine (next_same (t' :: u)) u).
    inversion Hg as [|? ? Ha _]; subst. cbn [group_from].
    destruct (pitches_eqb (b_pitches t') (b_pitches a)) eqn:E; [apply pitches_eqb_eq in E; contradiction|reflexivity].
  - inversion Hg as [|? ? Ha Hg']; subst. inversion Hg' as [|? ? Hb _]; subst.
    change (combine (next_same (a :: (b :: g) ++ h)) ((b :: g) ++ h))
      with ((pitches_eqb (b_pitches b) (b_pitches a), b) :: combine (next_same (b :: g ++ h)) (g ++ h)).
    cbn [group_from]. rewrite (proj2 (pitches_eqb_eq _ _) Hb).
    rewrite (IH h rs (cur ++ [b]) b (b_pitches a) Hg' Hh). rewrite <- !app_assoc. reflexivity.
Qed.
Lemma groups_runs : forall rs, Forall (fun g => g <> [] /\ same_pitches g) rs -> differ rs -> groups (concat rs) = rs.
Proof.
  induction rs as [|g rs IH]; intros H D; [reflexivity|].
  inversion H as [|? ? [Hn [p Hp]] Hr]; subst. destruct g as [|a g]; [congruence|].
  cbn [concat app]. unfold groups. 
  rewrite (group_from_runs g (concat rs) rs [a] a p Hp).
  - destruct rs as [|r rs]; [reflexivity|].
    assert (D' : differ (r :: rs)) by exact (proj2 D). specialize (IH Hr D').
    inversion Hr as [|? ? [Hn' _] _]; subst. destruct r as [|t r]; [congruence|].
    cbn [concat app] in IH |- *. unfold groups in IH. rewrite IH. reflexivity.
  - destruct rs as [|r rs]; [reflexivity|]. inversion Hr as [|? ? [Hn' _] _]; subst. destruct r as [|t r]; [congruence|].
    exists t. cbn [concat app]. split; [reflexivity|]. split; [reflexivity|].
    destruct D as [D _]. intro K. apply (D a t); [left; reflexivity|left; reflexivity|].
    inversion Hp; subst. congruence.
Qed.
Lemma no_two_run : forall g a h p, Forall (fun n => b_pitches n = p) (a :: g) ->
  no_two (next_same h) = true -> (h = [] \/ nth 0 (next_same h) true = true) ->
  no_two (next_same (a :: g ++ h)) = true /\ (g = [] \/ nth 0 (next_same (a :: g ++ h)) true = true).
Proof.
  induction g as [|b g IH]; intros a h p Hg Hh H0.
  - split; [|left; reflexivity]. cbn [app]. destruct h as [|t u]; [reflexivity|].
    change (next_same (a :: t :: u)) with (pitches_eqb (b_pitches t) (b_pitches a) :: next_same (t :: u)).
    destruct H0 as [H0|H0]; [discriminate|].
    destruct (next_same (t :: u)) as [|x r] eqn:E; [reflexivity|]. cbn in H0. subst x.
    change (no_two (pitches_eqb (b_pitches t) (b_pitches a) :: true :: r))
      with ((pitches_eqb (b_pitches t) (b_pitches a) || true) && no_two (true :: r)).
    rewrite orb_true_r. exact Hh.
  - inversion Hg as [|? ? Ha Hg']; subst. inversion Hg' as [|? ? Hb _]; subst.
    destruct (IH b h (b_pitches a) Hg' Hh H0) as [I1 I2].
    change (next_same (a :: (b :: g) ++ h)) with (pitches_eqb (b_pitches b) (b_pitches a) :: next_same (b :: g ++ h)).
    rewrite (proj2 (pitches_eqb_eq _ _) Hb). split; [|right; reflexivity].
    destruct (next_same (b :: g ++ h)) as [|x r] eqn:E; [reflexivity|].
    change (no_two (true :: x :: r)) with (no_two (x :: r)). exact I1.
Qed.
Lemma no_two_runs : forall rs, Forall (fun g => 2 <= List.length g /\ same_pitches g) rs ->
  no_two (next_same (concat rs)) = true /\ (concat rs = [] \/ nth 0 (next_same (concat rs)) true = true).
Proof.
  induction rs as [|g rs IH]; intro H; [split; [reflexivity|left; reflexivity]|].
  inversion H as [|? ? [H2 [p Hp]] Hr]; subst. destruct (IH Hr) as [I1 I2].
  destruct g as [|a g]; [cbn in H2; lia|]. cbn [concat app].
  destruct (no_two_run g a (concat rs) p Hp I1 I2) as [J1 J2]. split; [exact J1|]. right.
  destruct J2 as [J2|J2]; [subst g; cbn in H2; lia|exact J2].
Qed.
Lemma pow2_pow : forall i, pow2 (2 ^ i) = true.
Proof.
  intro i. unfold pow2. apply andb_true_iff. split.
  - apply negb_true_iff, Nat.eqb_neq. apply Nat.pow_nonzero. lia.
  - apply N.eqb_eq. rewrite Nat2N.inj_pow. change (N.of_nat 2) with 2%N. rewrite N.sub_1_r.
    rewrite <- N.ones_equiv, N.land_ones. apply N.mod_same. apply N.pow_nonzero. lia.
Qed.

(** Two runs or more of 2, 4, 8, ... equal chords, none longer than a quarter, neighbours
    different, without ties: each run becomes one note with slashes that stands for it, and
    the beam is kept. *)
Theorem C161_runs : forall rs j, 2 <= List.length rs -> j <= 8 ->
  Forall (fun g => same_pitches g /\ exists i, 1 <= i <= j /\ List.length g = 2 ^ i) rs -> differ rs ->
  Forall (fun n => (b_dur n == half_to j)%Q /\ b_cont n = false /\ b_tie n = false) (concat rs) ->
  exists marks, check_tremolo (concat rs) = Some (concat marks, false)
    /\ Forall2 (fun g ms => exists v k, ms = Trem v k :: repeat Hidden (List.length g - 1)
         /\ (v == written g)%Q /\ slashed v k (half_to j) /\ (1 <= k)%Z) rs marks.
Proof.
  intros rs j Hrs Hj Hr D Ht.
  assert (Hne : Forall (fun g => g <> [] /\ same_pitches g) rs).
  { eapply Forall_impl; [|exact Hr]. cbn. intros g (S & i & Hi & Hl). split; [|exact S]. intro K. subst g.
    cbn in Hl. pose proof (Nat.pow_nonzero 2 i). lia. }
  assert (H2 : Forall (fun g => 2 <= List.length g /\ same_pitches g) rs).
  { eapply Forall_impl; [|exact Hr]. cbn. intros g (S & i & Hi & Hl). split; [|exact S]. rewrite Hl.
    apply (Nat.pow_le_mono_r 2 1 i); lia. }
  pose proof (groups_runs rs Hne D) as G. destruct (no_two_runs rs H2) as [NT _].
  assert (NS : forallb (fun b => b) (next_same (concat rs)) = false).
  { apply not_true_iff_false. intro K. apply all_same in K as [p K].
    destruct rs as [|g [|h rs]]; [cbn in Hrs; lia..|]. destruct D as [D _].
    inversion Hne as [|? ? [Hg _] Hne']; subst. inversion Hne' as [|? ? [Hh _] _]; subst.
    destruct g as [|x g]; [congruence|]. destruct h as [|y h]; [congruence|].
    apply (D x y); [left; reflexivity|left; reflexivity|].
    rewrite Forall_forall in K. rewrite (K x), (K y); [reflexivity| |].
    - cbn [concat]. apply in_or_app. right. left. reflexivity.
    - left. reflexivity. }
  assert (L3 : 3 <= List.length (next_same (concat rs))).
  { rewrite next_same_length. destruct rs as [|g [|h rs]]; [cbn in Hrs; lia..|].
    inversion H2 as [|? ? [Hg _] H2']; subst. inversion H2' as [|? ? [Hh _] _]; subst.
    cbn [concat]. rewrite !app_length. lia. }
  pose proof (no_two_internal _ NT L3) as NI.
  assert (P2 : forallb (fun g => pow2 (List.length g)) rs = true).
  { apply forallb_forall. intros g Hg. rewrite Forall_forall in Hr. destruct (Hr g Hg) as (_ & i & _ & Hl).
    rewrite Hl. apply pow2_pow. }
  destruct (concat rs) as [|a rest] eqn:El; [cbn in L3; lia|].
  assert (Hda : (b_dur a == half_to j)%Q) by (inversion Ht as [|? ? [K _] _]; exact K).
  exists (map (group_marks (b_dur a)) rs). split.
  - unfold check_tremolo. cbv zeta. 
    replace (Qeq_bool (b_dur a) 0) with false.
    2: { symmetry. apply not_true_iff_false. intro E. apply Qeq_bool_iff in E. pose proof (half_pos j). lra. }
    rewrite Forall_forall in Ht.
    assert (E1 : existsb b_cont (a :: rest) = false).
    { apply not_true_iff_false. intro E. apply existsb_exists in E as (x & Hx & E).
      destruct (Ht x Hx) as (_ & K & _). congruence. }
    assert (E2 : existsb b_tie rest = false).
    { apply not_true_iff_false. intro E. apply existsb_exists in E as (x & Hx & E).
      destruct (Ht x (or_intror Hx)) as (_ & _ & K). congruence. }
    assert (E3 : existsb (fun n => negb (Qeq_bool (b_dur n) (b_dur a))) rest = false).
    { apply not_true_iff_false. intro E. apply existsb_exists in E as (x & Hx & E).
      destruct (Ht x (or_intror Hx)) as (K & _).
      apply negb_true_iff, Qeq_bool_neq in E. apply E. rewrite K, Hda. reflexivity. }
    rewrite E1, E2, E3. cbn [orb]. rewrite NS, NI, G, P2. cbn [andb]. rewrite flat_map_concat_map. reflexivity.
  - assert (Hd : Forall (fun n => (b_dur n == half_to j)%Q) (concat rs)).
    { rewrite El. eapply Forall_impl; [|exact Ht]. cbn. tauto. }
    clear - Hda Hr Hd Hj. revert Hr Hd. generalize (b_dur a) Hda. clear a Hda. intros d Hda.
    induction rs as [|g rs IH]; intros Hr Hd; cbn [map]; constructor.
    + inversion Hr as [|? ? (Hs & i & Hi & Hl) _]; subst. cbn [concat] in Hd. apply Forall_app in Hd as [Hd _].
      assert (Hlen : List.length g <= 2 ^ j) by (rewrite Hl; apply Nat.pow_le_mono_r; lia).
      assert (Hg : g <> []) by (intro K; subst g; cbn in Hl; pose proof (Nat.pow_nonzero 2 i); lia).
      unfold group_marks. set (v := (d * q_of (List.length g))%Q).
      assert (Hv : (v == half_to (j - i))%Q).
      { unfold v, q_of. rewrite Hl, Hda. apply half_mult. lia. }
      assert (Hlog : tlog2 (d / v) = (- Z.of_nat i)%Z).
      { apply tlog2_half. rewrite Hv, Hda. unfold half_to.
        replace (2 ^ Z.of_nat j)%Z with (2 ^ Z.of_nat i * 2 ^ Z.of_nat (j - i))%Z
          by (rewrite <- Z.pow_add_r by lia; f_equal; lia).
        rewrite inject_Z_mult. field. split; apply pow_q. }
      exists v, (- tlog2 (d / v))%Z. split; [reflexivity|]. split.
      { pose proof (adv_same g _ 0%Q Hd) as E. rewrite written_adv in E. unfold v. rewrite Hda. lra. }
      rewrite Hlog. split; [|lia].
      exists (j - i), i. split; [apply flags_half; exact Hv|]. split; [lia|]. split; [lia|].
      replace (j - i + i) with j by lia. reflexivity.
    + inversion Hr; subst. apply IH; [assumption|]. cbn [concat] in Hd. apply Forall_app in Hd as [_ Hd]. exact Hd.
Qed.
Print Assumptions C161_runs.
Example C161_runs_nonvacuous :
  check_tremolo (concat [map sixteenth [162; 162]; map sixteenth [168; 168; 168; 168]; map sixteenth [162; 162]])%Z
  = Some (concat [[Trem (2 # 4) 1; Hidden]; [Trem (4 # 4) 2; Hidden; Hidden; Hidden]; [Trem (2 # 4) 1; Hidden]], false).
Proof. vm_compute. reflexivity. Qed.

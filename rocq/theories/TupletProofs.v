(** Lemmas about the finding of tuplets: ratios, and the numbers of starts and ends. *)
From Coq Require Import ZArith QArith Qpower Zpow_facts Znumtheory Lia.
From Verif Require Import PyStr RecipModel RecipProofs DurationModel Pow2Proofs DurationProofs TupletModel PropsTupletGroups.
Local Close Scope Q_scope.

(** * Powers of two. *)
Lemma pow2_pos z : (0 < 2 ^ z)%Q.
Proof. apply Qpower_0_lt. reflexivity. Qed.
Lemma pow2_add a b : (2 ^ (a + b) == 2 ^ a * 2 ^ b)%Q.
Proof. apply Qpower_plus. discriminate. Qed.
Lemma pow2_lt_inv a b : (2 ^ a < 2 ^ b)%Q -> (a < b)%Z.
Proof.
  intros H. destruct (Z.lt_ge_cases a b) as [L | L]; [exact L|]. exfalso.
  apply (Qlt_not_le _ _ H). apply Qpower_le_compat_l; [exact L|discriminate].
Qed.
Lemma pow2_mul a b : is_power_of_two a -> is_power_of_two b -> is_power_of_two (a * b).
Proof. intros [x A] [y B]. exists (x + y)%Z. rewrite A, B, pow2_add. reflexivity. Qed.
Lemma pow2_div a b : is_power_of_two a -> is_power_of_two b -> is_power_of_two (a / b).
Proof. intros [x A] [y B]. exists (x - y)%Z. unfold Z.sub. rewrite A, B, pow2_add, Qpower_opp. reflexivity. Qed.
Lemma pow2_eq a b : (a == b)%Q -> is_power_of_two a -> is_power_of_two b.
Proof. intros E [z A]. exists z. rewrite <- E. exact A. Qed.
Lemma pow2_between a b w : (w <= 2 ^ a)%Q -> (2 ^ a < 2 * w)%Q -> (w <= 2 ^ b)%Q -> (2 ^ b < 2 * w)%Q -> a = b.
Proof.
  intros A1 A2 B1 B2. assert (X : forall x y, (w <= 2 ^ x)%Q -> (2 ^ y < 2 * w)%Q -> (y < 1 + x)%Z).
  { intros x y X1 X2. apply pow2_lt_inv. rewrite pow2_add. apply (Qlt_le_trans _ _ _ X2).
    change (2 ^ 1)%Q with 2%Q. rewrite (Qmult_comm 2 w), (Qmult_comm 2 (2 ^ x)). apply Qmult_le_compat_r; [exact X1|discriminate]. }
  pose proof (X a b A1 B2). pose proof (X b a B1 A2). lia.
Qed.
Lemma nextHigher_spec w : (0 < w < 1)%Q -> exists f, (nextHigher w == 2 ^ f)%Q /\ (w <= 2 ^ f)%Q /\ (2 ^ f < 2 * w)%Q.
Proof.
  intros [P L]. pose proof (qfrac_red w) as R. unfold nextHigher. set (n := qnum w) in *. set (d := qden w) in *. clearbody n d.
  assert (N : (0 < n)%Z). { rewrite <- R in P. unfold Qlt in P. cbn in P. lia. }
  assert (ND : (n < Zpos d)%Z). { rewrite <- R in L. unfold Qlt in L. cbn in L. lia. }
  set (q := (Zpos d / n)%Z). assert (Q1 : (1 <= q)%Z). { apply Z.div_le_lower_bound; lia. }
  destruct (Z.log2_spec q) as [L1 L2]; [lia|]. set (k := Z.log2 q) in *. assert (K : (0 <= k)%Z) by apply Z.log2_nonneg.
  assert (D1 : (n * q <= Zpos d)%Z) by (apply Z.mul_div_le; exact N).
  assert (D2 : (Zpos d < n * Z.succ q)%Z) by (apply Z.mul_succ_div_gt; exact N).
  exists (- k)%Z. assert (KP : (2 ^ k == inject_Z (2 ^ k))%Q) by (rewrite <- (Z2Nat.id k K); apply Qpow2_nat).
  assert (PP : (0 < 2 ^ k)%Z) by (apply Z.pow_pos_nonneg; lia). rewrite Qpower_opp, KP. split; [reflexivity|].
  assert (Z0 : ~ (inject_Z (2 ^ k) == 0)%Q). { unfold Qeq. cbn. lia. }
  rewrite <- R. assert (I : (/ inject_Z (2 ^ k) == 1 # Z.to_pos (2 ^ k))%Q).
  { apply Qmult_inj_r with (z := inject_Z (2 ^ k)); [exact Z0|]. rewrite Qmult_comm, Qmult_inv_r by exact Z0. unfold Qeq, inject_Z. cbn [Qnum Qden Qmult]. rewrite ?Pos.mul_1_r, ?Z2Pos.id by exact PP. lia. }
  rewrite I. unfold Qle, Qlt. cbn [Qnum Qden Qmult]. rewrite Z2Pos.id by exact PP. split.
  - apply Z.le_trans with (n * q)%Z; [|lia]. apply Z.mul_le_mono_nonneg_l; lia.
  - rewrite Pos.mul_1_l. rewrite Z.pow_succ_r in L2 by exact K. apply Z.lt_le_trans with (n * (2 * 2 ^ k))%Z; [|lia].
    apply Z.lt_le_trans with (n * Z.succ q)%Z; [lia|]. apply Z.mul_le_mono_nonneg_l; lia.
Qed.
Lemma nextHigher_scale w w' z : (0 < w < 1)%Q -> (0 < w' < 1)%Q -> (w' == w * 2 ^ z)%Q -> (nextHigher w' == nextHigher w * 2 ^ z)%Q.
Proof.
  intros W W' E. destruct (nextHigher_spec w W) as (f & F & F1 & F2). destruct (nextHigher_spec w' W') as (g & G & G1 & G2).
  rewrite F, G, <- pow2_add. assert (g = f + z)%Z as ->; [|reflexivity].
  apply (pow2_between _ _ w'); [exact G1|exact G2| |].
  - rewrite E, pow2_add. apply Qmult_le_compat_r; [exact F1|apply Qlt_le_weak, pow2_pos].
  - rewrite E, pow2_add, Qmult_assoc. apply Qmult_lt_compat_r; [apply pow2_pos|exact F2].
Qed.

(** * Ratios. *)
Lemma three_spec w : (0 < w < 1)%Q -> ((qnum w =? 3)%Z && isPowerOfTwo (inject_Z (Zpos (qden w))) = true <-> is_power_of_two (w / 3)).
Proof.
  intros [P L]. rewrite andb_true_iff, Z.eqb_eq, isPowerOfTwo_spec by discriminate. split.
  - intros [N [z D]]. exists (- z)%Z. pose proof (qfrac_red w) as R. rewrite N in R. rewrite <- R, Qpower_opp, <- D.
    unfold Qeq. cbn. lia.
  - intros [z E]. assert (ZN : (z < 0)%Z).
    { apply pow2_lt_inv. rewrite <- E. change (2 ^ 0)%Q with 1%Q. apply (Qlt_le_trans _ (1 / 3)); [|discriminate].
      apply Qmult_lt_compat_r; [reflexivity|exact L]. }
    set (a := Z.to_nat (- z)). assert (EZ : z = (- Z.of_nat a)%Z) by (unfold a; lia). rewrite EZ in E.
    assert (PP : (0 < 2 ^ Z.of_nat a)%Z) by (apply Z.pow_pos_nonneg; lia).
    destruct (2 ^ Z.of_nat a)%Z as [|p|p] eqn:HP; try lia. symmetry in HP. rewrite (Qpow2_neg_nat a p HP) in E.
    assert (W : (w == 3 # p)%Q). { setoid_replace w with (w / 3 * 3)%Q by field. rewrite E. unfold Qeq. cbn. lia. }
    destruct (qnum_qden_eq w 3 p W) as [-> ->].
    { rewrite HP. apply Zgcd_1_rel_prime. apply rel_prime_Zpower_r; [lia|].
      apply Zgcd_1_rel_prime. reflexivity. }
    split; [reflexivity|]. exists (Z.of_nat a). rewrite Qpow2_nat, HP. reflexivity.
Qed.
Definition related (x y : item) : Prop := exists z, (i_nodots y == i_nodots x * 2 ^ z)%Q.
Definition short (x : item) : Prop := (0 < i_nodots x)%Q /\ (i_nodots x < 4)%Q.
Lemma short_whole x : short x -> (0 < i_nodots x / 4 < 1)%Q.
Proof.
  intros [A B]. split; [apply Qlt_shift_div_l; [reflexivity|exact A]|]. apply Qlt_shift_div_r; [reflexivity|exact B].
Qed.
Lemma Qle_bool_lt w : (w < 1)%Q -> Qle_bool 1 w = false.
Proof. intros L. apply not_true_is_false. intros H. apply Qle_bool_iff in H. exact (Qlt_not_le _ _ L H). Qed.
(** The ratio of a short note: a fraction in lowest terms. *)
Lemma ratio_spec x : short x -> exists m, (ratio x = (Zpos (qden m), qnum m, m))%Z /\ (0 < m)%Q /\ is_power_of_two (i_nodots x / m) /\
  (forall y, short y -> related x y -> exists m', ratio y = (Zpos (qden m'), qnum m', m') /\ (m' == m)%Q).
Proof.
  assert (U : forall x, short x -> let w := (i_nodots x / 4)%Q in let p := (if (qnum w =? 3)%Z && isPowerOfTwo (inject_Z (Zpos (qden w))) then nextHigher w / 2 else nextHigher w)%Q in
    ratio x = (Zpos (qden (w / p)), qnum (w / p), w / p)%Q).
  { intros y S w p. unfold ratio. fold w. pose proof (short_whole y S) as W. fold w in W. rewrite Qle_bool_lt by apply W. fold p.
    destruct ((qnum w =? 4)%Z && (qden w =? 3)%positive) eqn:E; [|reflexivity]. exfalso. apply andb_true_iff in E. destruct E as [E1 E2].
    apply Z.eqb_eq in E1. apply Pos.eqb_eq in E2. pose proof (qfrac_red w) as R. rewrite E1, E2 in R. destruct W as [_ W]. rewrite <- R in W. discriminate. }
  intros S. cbv zeta in U. pose proof (U x S) as UX. set (w := (i_nodots x / 4)%Q) in *.
  pose proof (short_whole x S) as W. fold w in W. destruct (nextHigher_spec w W) as (f & F & F1 & F2).
  set (p := (if (qnum w =? 3)%Z && isPowerOfTwo (inject_Z (Zpos (qden w))) then nextHigher w / 2 else nextHigher w)%Q) in *.
  assert (PP : is_power_of_two p).
  { unfold p. destruct (_ && _); [apply pow2_div; [exists f; exact F|exists 1%Z; reflexivity]|exists f; exact F]. }
  assert (P0 : (0 < p)%Q) by (destruct PP as [z ->]; apply pow2_pos). assert (PN : ~ (p == 0)%Q) by (intros H; rewrite H in P0; discriminate).
  exists (w / p)%Q. split; [exact UX|]. split; [apply Qlt_shift_div_l; [exact P0|]; rewrite Qmult_0_l; apply W|]. split.
  - apply (pow2_eq (4 * p)).
    + unfold w. field. split; [exact PN|]. intros H. destruct S as [S _]. rewrite H in S. discriminate.
    + apply pow2_mul; [exists 2%Z; reflexivity|exact PP].
  - intros y SY [z RE]. eexists. split; [apply (U y SY)|]. set (w' := (i_nodots y / 4)%Q). pose proof (short_whole y SY) as W'. fold w' in W'.
    assert (E : (w' == w * 2 ^ z)%Q) by (unfold w, w'; rewrite RE; field). pose proof (nextHigher_scale w w' z W W' E) as NH.
    assert (T : (qnum w' =? 3)%Z && isPowerOfTwo (inject_Z (Zpos (qden w'))) = (qnum w =? 3)%Z && isPowerOfTwo (inject_Z (Zpos (qden w)))).
    { apply eq_true_iff_eq. rewrite !three_spec by assumption. split; intros H.
      - apply (pow2_eq (w' / 3 / 2 ^ z)); [rewrite E; field; intros X; pose proof (pow2_pos z) as Y; rewrite X in Y; discriminate|]. apply pow2_div; [exact H|exists z; reflexivity].
      - apply (pow2_eq (w / 3 * 2 ^ z)); [rewrite E; field|]. apply pow2_mul; [exact H|exists z; reflexivity]. }
    rewrite T. unfold p. assert (ZN : ~ (2 ^ z == 0)%Q) by (intros X; pose proof (pow2_pos z) as Y; rewrite X in Y; discriminate).
    assert (NN : ~ (nextHigher w == 0)%Q) by (rewrite F; intros X; pose proof (pow2_pos f) as Y; rewrite X in Y; discriminate).
    destruct (_ && _); rewrite NH, E; field; auto.
Qed.
Lemma ratio_same x y : short x -> short y -> ~ ordinary x -> (snd (ratio x) == snd (ratio y))%Q -> related x y.
Proof.
  intros SX SY _ E. destruct (ratio_spec x SX) as (m & EX & M & [a A] & _). destruct (ratio_spec y SY) as (m' & EY & M' & [b B] & _).
  rewrite EX, EY in E. cbn in E. exists (b - a)%Z. unfold Z.sub. rewrite pow2_add, Qpower_opp, <- A, <- B, <- E.
  field. destruct SX as [SX _]. split; intros H; [rewrite H in M; discriminate|rewrite H in SX; discriminate].
Qed.

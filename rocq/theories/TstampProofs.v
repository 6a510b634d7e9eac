(** Lemmas about the time stamps of MEI: best approximations, decimal numerals, rounding. *)
From Coq Require Import QArith Qround Qabs Qreduction Lqa Znumtheory.
From Verif Require Import PyStr PyStrProofs RecipModel TstampModel.
Local Close Scope Q_scope.

(** ** Best approximations *)

Section Limit.
Local Open Scope Z_scope.
Variables (L nO dO : Z).
Hypothesis L1 : 1 <= L.
Hypothesis dL : L < dO.
Hypothesis cop : Z.gcd nO dO = 1.

Definition state_ok (n d p0 q0 p1 q1 s : Z) : Prop :=
  nO = p1 * n + p0 * d /\ dO = q1 * n + q0 * d /\ p1 * q0 - p0 * q1 = s /\ (s = 1 \/ s = -1) /\ 0 <= d < n /\ 0 <= q0 <= L /\ 1 <= q1 <= L.

Lemma state_pos n d p0 q0 p1 q1 s : state_ok n d p0 q0 p1 q1 s -> d <> 0.
Proof.
  intros (A & B & C & D & E & F & G) Z. subst d. assert (N : n = 1).
  { assert (X : (n | Z.gcd nO dO)) by (apply Z.gcd_greatest; [exists p1|exists q1]; lia). rewrite cop in X. apply Z.divide_1_r_nonneg in X; lia. }
  subst n. lia.
Qed.

Lemma state_step n d p0 q0 p1 q1 s : state_ok n d p0 q0 p1 q1 s -> q0 + n / d * q1 <= L ->
  1 <= n / d /\ state_ok d (n - n / d * d) p1 q1 (p0 + n / d * p1) (q0 + n / d * q1) (- s).
Proof.
  intros K Q. assert (D0 := state_pos _ _ _ _ _ _ _ K). destruct K as (A & B & C & D & E & F & G).
  assert (AP : 1 <= n / d) by (apply Z.div_le_lower_bound; lia). split; [exact AP|].
  assert (M := Z.mod_pos_bound n d ltac:(lia)). assert (DM := Z.div_mod n d D0). set (a := n / d) in *.
  replace (n - a * d) with (n mod d) by lia. assert (ND : n = a * d + n mod d) by lia. set (r := n mod d) in *.
  unfold state_ok. repeat split; try lia; try nia.
Qed.

Lemma loop_ends fuel : forall n d p0 q0 p1 q1 s, state_ok n d p0 q0 p1 q1 s -> 2 * L - (q0 + q1) < Z.of_nat fuel ->
  exists n' d' a0 b0 a1 b1 s', lim_loop fuel L n d p0 q0 p1 q1 = Some (a0, b0, a1, b1) /\ state_ok n' d' a0 b0 a1 b1 s' /\ L < b0 + n' / d' * b1.
Proof.
  induction fuel as [|f IH]; intros n d p0 q0 p1 q1 s K F.
  - destruct K as (_ & _ & _ & _ & _ & ? & ?). lia.
  - cbn [lim_loop]. destruct (Z.eqb_spec d 0) as [D0|D0]; [exfalso; exact (state_pos _ _ _ _ _ _ _ K D0)|].
    destruct (Z.ltb_spec L (q0 + n / d * q1)) as [LT|LE].
    + exists n, d, p0, q0, p1, q1, s. split; [reflexivity|]. split; [exact K|exact LT].
    + destruct (state_step _ _ _ _ _ _ _ K LE) as [AP K']. apply (IH _ _ _ _ _ _ _ K').
      destruct K as (_ & _ & _ & _ & _ & ? & ?). nia.
Qed.

Lemma loop_result : exists n d p0 q0 p1 q1 s, lim_loop (Z.to_nat (2 * L + 4)) L nO dO 0 1 1 0 = Some (p0, q0, p1, q1) /\ state_ok n d p0 q0 p1 q1 s /\ L < q0 + n / d * q1.
Proof.
  assert (FU : exists f, Z.to_nat (2 * L + 4) = S f /\ 2 * L < Z.of_nat f) by (exists (Z.to_nat (2 * L + 3)); lia).
  destruct FU as (f & -> & FF). cbn [lim_loop]. destruct (Z.eqb_spec dO 0) as [|D0]; [lia|].
  replace (1 + nO / dO * 0) with 1 by lia. replace (0 + nO / dO * 1) with (nO / dO) by lia. destruct (Z.ltb_spec L 1) as [|_]; [lia|].
  assert (M := Z.mod_pos_bound nO dO ltac:(lia)). assert (DM := Z.div_mod nO dO D0).
  apply (loop_ends f _ _ _ _ _ _ (-1)); [|lia]. unfold state_ok. repeat split; lia.
Qed.

(** The two bounds are neighbours: no fraction of denominator at most [L] lies between them. *)
Lemma neighbours p0 q0 p1 q1 n d s p q : state_ok n d p0 q0 p1 q1 s -> L < q0 + n / d * q1 -> 0 < q <= L ->
  let k := (L - q0) / q1 in let b1n := p0 + k * p1 in let b1d := q0 + k * q1 in
  (1 <= b1d <= L) /\
  (Z.abs (p1 * dO - nO * q1) * q <= Z.abs (p * dO - nO * q) * q1 \/ Z.abs (b1n * dO - nO * b1d) * q <= Z.abs (p * dO - nO * q) * b1d).
Proof.
  intros K BR [Q0 QL]. cbn zeta. assert (D0 := state_pos _ _ _ _ _ _ _ K). destruct K as (A & B & C & D & E & F & G).
  set (k := (L - q0) / q1). assert (KM := Z.mod_pos_bound (L - q0) q1 ltac:(lia)). assert (KD := Z.div_mod (L - q0) q1 ltac:(lia)). fold k in KD.
  assert (K0 : 0 <= k) by (apply Z.div_pos; lia).
  assert (M := Z.mod_pos_bound n d ltac:(lia)). assert (DM := Z.div_mod n d D0). set (a := n / d) in *.
  assert (KA : k < a) by nia.
  set (b1n := p0 + k * p1). set (b1d := q0 + k * q1).
  assert (B1 : 1 <= b1d <= L) by (unfold b1d; nia). split; [exact B1|].
  assert (SUM : L < b1d + q1) by (unfold b1d; nia).
  assert (X2 : p1 * dO - nO * q1 = s * d) by (subst s; rewrite A, B; ring).
  assert (X1 : b1n * dO - nO * b1d = - s * (n - k * d)) by (subst s; unfold b1n, b1d; rewrite A, B; ring).
  assert (NK : 0 < n - k * d) by (assert ((k + 1) * d <= a * d) by (apply Z.mul_le_mono_nonneg_r; lia); lia).
  assert (DET : p1 * b1d - b1n * q1 = s) by (subst s; unfold b1n, b1d; ring).
  set (u := p1 * q - p * q1). set (v := p * b1d - q * b1n).
  assert (UV : u * b1d + v * q1 = s * q) by (rewrite <- DET; unfold u, v; ring).
  (* on which side *)
  assert (PX2 : (p * dO - nO * q) * q1 = s * d * q - u * dO) by (unfold u; rewrite <- X2; ring).
  assert (PX1 : (p * dO - nO * q) * b1d = - s * (n - k * d) * q + v * dO) by (unfold v; rewrite <- X1; ring).
  assert (Y2 : Z.abs (p * dO - nO * q) * q1 = Z.abs ((p * dO - nO * q) * q1)) by (rewrite Z.abs_mul, (Z.abs_eq q1); lia).
  assert (Y1 : Z.abs (p * dO - nO * q) * b1d = Z.abs ((p * dO - nO * q) * b1d)) by (rewrite Z.abs_mul, (Z.abs_eq b1d); lia).
  rewrite Y1, Y2, PX1, PX2, X1, X2. assert (dO0 : 0 < dO) by lia.
  assert (DQ : 0 <= d * q) by (apply Z.mul_nonneg_nonneg; lia). assert (NQ : 0 <= (n - k * d) * q) by (apply Z.mul_nonneg_nonneg; lia).
  assert (W : s * u <= 0 \/ s * v <= 0).
  { destruct (Z.le_gt_cases (s * u) 0) as [|U]; [left; assumption|]. destruct (Z.le_gt_cases (s * v) 0) as [|V]; [right; assumption|]. exfalso.
    assert (s * (u * b1d + v * q1) = s * u * b1d + s * v * q1) by ring. rewrite UV in H. assert (s * (s * q) = q) by (destruct D as [D|D]; rewrite D; ring).
    assert (1 * b1d <= s * u * b1d) by (apply Z.mul_le_mono_nonneg_r; lia). assert (1 * q1 <= s * v * q1) by (apply Z.mul_le_mono_nonneg_r; lia). lia. }
  destruct W as [W|W]; [left|right].
  - assert (0 <= - (s * u) * dO) by (apply Z.mul_nonneg_nonneg; lia). destruct D as [D|D]; rewrite D in *.
    + replace (1 * d) with d by ring. rewrite (Z.abs_eq d) by lia. rewrite Z.abs_eq; lia.
    + replace (-1 * d) with (- d) by ring. rewrite Z.abs_opp, (Z.abs_eq d) by lia. rewrite Z.abs_neq; lia.
  - assert (0 <= - (s * v) * dO) by (apply Z.mul_nonneg_nonneg; lia). destruct D as [D|D]; rewrite D in *.
    + replace (- (1) * (n - k * d)) with (- (n - k * d)) by ring. rewrite Z.abs_opp, (Z.abs_eq (n - k * d)) by lia. rewrite Z.abs_neq; lia.
    + replace (- -1 * (n - k * d)) with (n - k * d) by ring. rewrite (Z.abs_eq (n - k * d)) by lia. rewrite Z.abs_eq; lia.
Qed.

(** The result is at least as close as any other fraction of denominator at most [L]. *)
Lemma best_approximation p q : 0 < q <= L -> exists bn bd, preFracLimitDenominator L nO dO = Some (bn, bd) /\ 1 <= bd <= L /\
  Z.abs (bn * dO - nO * bd) * q <= Z.abs (p * dO - nO * q) * bd.
Proof.
  intros Q. unfold preFracLimitDenominator. destruct (Z.leb_spec dO L) as [|_]; [lia|].
  destruct loop_result as (n & d & p0 & q0 & p1 & q1 & s & -> & K & BR).
  destruct (neighbours _ _ _ _ _ _ _ p q K BR Q) as [B1 N]. cbn zeta in B1, N.
  set (k := (L - q0) / q1) in *. set (b1n := p0 + k * p1) in *. set (b1d := q0 + k * q1) in *.
  assert (Q1 : 1 <= q1 <= L) by (destruct K as (_ & _ & _ & _ & _ & _ & K); exact K).
  set (x1 := Z.abs (b1n * dO - nO * b1d)) in *. set (x2 := Z.abs (p1 * dO - nO * q1)) in *. set (x := Z.abs (p * dO - nO * q)) in *.
  assert (P1 : 0 <= x1) by apply Z.abs_nonneg. assert (P2 : 0 <= x2) by apply Z.abs_nonneg. assert (P : 0 <= x) by apply Z.abs_nonneg.
  replace (x1 * (dO * q1) - x2 * (dO * b1d)) with (dO * (x1 * q1 - x2 * b1d)) by ring.
  destruct (Z.leb_spec 0 (dO * (x1 * q1 - x2 * b1d))) as [S|S].
  - exists p1, q1. split; [reflexivity|]. split; [exact Q1|]. fold x2. destruct N as [N|N]; [exact N|].
    assert (H : x2 * b1d <= x1 * q1) by (apply Z.mul_nonneg_cancel_l in S; lia).
    assert (H1 : x2 * b1d * q <= x1 * q1 * q) by (apply Z.mul_le_mono_nonneg_r; lia). assert (H2 : x1 * q * q1 <= x * b1d * q1) by (apply Z.mul_le_mono_nonneg_r; lia).
    apply (Z.mul_le_mono_pos_r _ _ b1d); lia.
  - exists b1n, b1d. split; [reflexivity|]. split; [exact B1|]. fold x1. destruct N as [N|N]; [|exact N].
    assert (H : x1 * q1 <= x2 * b1d) by (destruct (Z.le_gt_cases (x1 * q1) (x2 * b1d)) as [|G]; [assumption|]; assert (0 <= dO * (x1 * q1 - x2 * b1d)) by (apply Z.mul_nonneg_nonneg; lia); lia).
    assert (H1 : x1 * q1 * q <= x2 * b1d * q) by (apply Z.mul_le_mono_nonneg_r; lia). assert (H2 : x2 * q * b1d <= x * q1 * b1d) by (apply Z.mul_le_mono_nonneg_r; lia).
    apply (Z.mul_le_mono_pos_r _ _ q1); lia.
Qed.
End Limit.

(** ** Fractions *)

Local Open Scope Q_scope.

Lemma qden_red x : x == qnum x # qden x.
Proof. unfold qnum, qden. transitivity (Qred x); [symmetry; apply Qred_correct|]. destruct (Qred x). reflexivity. Qed.
Lemma qgcd x : Z.gcd (qnum x) (Zpos (qden x)) = 1%Z.
Proof.
  unfold qnum, qden, Qred. destruct x as [n d]. assert (G := Z.ggcd_gcd n (Zpos d)). assert (C := Z.ggcd_correct_divisors n (Zpos d)).
  destruct (Z.ggcd n (Zpos d)) as [g [a b]]. cbn [fst snd] in G, C |- *. cbn [Qnum Qden]. destruct C as [C1 C2].
  assert (G0 : (0 < g)%Z) by (assert (0 <= g)%Z by (rewrite G; apply Z.gcd_nonneg); destruct (Z.eq_dec g 0) as [E|]; [rewrite E in C2; cbn in C2; discriminate|lia]).
  assert (B0 : (0 < b)%Z) by nia. rewrite Z2Pos.id by exact B0.
  assert (X : Z.gcd n (Zpos d) = (g * Z.gcd a b)%Z) by (rewrite C1, C2, Z.gcd_mul_mono_l, Z.abs_eq by lia; reflexivity). rewrite <- G in X. nia.
Qed.
Lemma qden_le x p q : x == p # q -> (Zpos (qden x) <= Zpos q)%Z.
Proof.
  intros E. rewrite (qden_red x) in E. assert (G := qgcd x). unfold Qeq in E. cbn [Qnum Qden] in E.
  assert (D : (Zpos (qden x) | Zpos q)%Z).
  { apply (Z.gauss _ (qnum x)); [exists p; lia|]. rewrite Z.gcd_comm. exact G. }
  apply Z.divide_pos_le in D; [exact D|reflexivity].
Qed.

(** The closest fraction among those of denominator at most [L]. *)
Lemma limit_best L x : (1 <= L)%Z -> exists y, limit_denominator L x = Some y /\ (Zpos (qden y) <= L)%Z /\
  forall z, (Zpos (qden z) <= L)%Z -> (Qabs (y - x) <= Qabs (z - x))%Q.
Proof.
  intros L1. unfold limit_denominator. destruct (Z.le_gt_cases (Zpos (qden x)) L) as [S|B].
  - unfold preFracLimitDenominator. apply Z.leb_le in S. rewrite S. apply Z.leb_le in S. exists (qnum x # qden x). split; [reflexivity|]. split.
    + assert (X := qden_le _ _ _ (Qeq_refl (qnum x # qden x))). lia.
    + intros z _. assert (X : (qnum x # qden x) - x == 0) by (rewrite <- qden_red; ring). rewrite X. apply Qabs_nonneg.
  - destruct (best_approximation L (qnum x) (Zpos (qden x)) L1 B (qgcd x) 0 1 ltac:(lia)) as (bn & bd & E & [B1 B2] & _). rewrite E.
    destruct bd as [|bd|bd]; [lia| |lia]. exists (bn # bd). split; [reflexivity|]. split; [assert (X := qden_le _ _ _ (Qeq_refl (bn # bd))); lia|].
    intros z Z. destruct (best_approximation L (qnum x) (Zpos (qden x)) L1 B (qgcd x) (qnum z) (Zpos (qden z)) ltac:(lia)) as (bn' & bd' & E' & _ & H).
    rewrite E in E'. injection E' as <- <-.
    assert (X1 : (bn # bd) - x == (bn # bd) - (qnum x # qden x)) by (rewrite <- qden_red; reflexivity). assert (X2 : z - x == (qnum z # qden z) - (qnum x # qden x)) by (rewrite <- !qden_red; reflexivity).
    rewrite X1, X2. unfold Qle, Qabs, Qminus, Qplus, Qopp. cbn [Qnum Qden]. rewrite !Pos2Z.inj_mul. 
    replace (bn * Zpos (qden x) + - qnum x * Zpos bd)%Z with (bn * Zpos (qden x) - qnum x * Zpos bd)%Z by ring.
    replace (qnum z * Zpos (qden x) + - qnum x * Zpos (qden z))%Z with (qnum z * Zpos (qden x) - qnum x * Zpos (qden z))%Z by ring.
    apply (Z.mul_le_mono_nonneg_r _ _ (Zpos (qden x))) in H; lia.
Qed.

(** Two different fractions are apart. *)
Lemma apart y z : ~ y == z -> (1 # (qden y * qden z) <= Qabs (y - z))%Q.
Proof.
  intros N. assert (X : y - z == (qnum y # qden y) - (qnum z # qden z)) by (rewrite <- !qden_red; reflexivity). rewrite X.
  unfold Qle, Qabs, Qminus, Qplus, Qopp. cbn [Qnum Qden]. rewrite !Pos2Z.inj_mul.
  assert (D : (qnum y * Zpos (qden z) + - qnum z * Zpos (qden y) <> 0)%Z).
  { intros E. apply N. rewrite (qden_red y), (qden_red z). unfold Qeq. cbn [Qnum Qden]. lia. }
  nia.
Qed.

Lemma recovers L x y0 : (1 <= L)%Z -> (Zpos (qden y0) <= L)%Z -> (Qabs (y0 - x) < 1 # (2 * Z.to_pos L * qden y0))%Q ->
  exists y, limit_denominator L x = Some y /\ y == y0.
Proof.
  intros L1 D A. destruct (limit_best L x L1) as (y & E & DY & B). exists y. split; [exact E|]. specialize (B y0 D).
  destruct (Qeq_dec y y0) as [|N]; [assumption|]. exfalso. apply apart in N.
  assert (T : (Qabs (y - y0) <= Qabs (y - x) + Qabs (y0 - x))%Q).
  { assert (X : y - y0 == (y - x) + - (y0 - x)) by ring. rewrite X. eapply Qle_trans; [apply Qabs_triangle|]. rewrite Qabs_opp. apply Qle_refl. }
  assert (U : (1 # Z.to_pos L * qden y0 <= 1 # qden y * qden y0)%Q).
  { unfold Qle. cbn [Qnum Qden]. rewrite !Pos2Z.inj_mul, Z2Pos.id by lia. nia. }
  assert (V : (1 # 2 * Z.to_pos L * qden y0) + (1 # 2 * Z.to_pos L * qden y0) == 1 # Z.to_pos L * qden y0).
  { unfold Qeq, Qplus. cbn [Qnum Qden]. rewrite !Pos2Z.inj_mul. ring. }
  lra.
Qed.

(** [isPowerOfTwo] decides being a power of two. *)
From Verif Require Import PyStr PyStrProofs RecipModel RecipProofs.
From Coq Require Import QArith Qreduction Qfield Znumtheory Qpower.
From Coq Require Qcanon.
Local Close Scope Q_scope.

Lemma land_pred_pow2_pos p :
  Z.land (Zpos p) (Zpos p - 1) = 0%Z -> exists a : nat, Zpos p = (2 ^ Z.of_nat a)%Z.
Proof.
  induction p as [p IH|p IH|]; intro H.
  - exfalso. change (Zpos p~1 - 1)%Z with (Zpos p~0) in H.
    cbn in H. assert (Pos.land p p = Npos p) as E.
    { clear. induction p as [p IH|p IH|]; cbn; [rewrite IH| rewrite IH|]; reflexivity. }
    rewrite E in H. discriminate H.
  - destruct IH as [a Ha].
    + replace (Zpos p~0) with (2 * Zpos p)%Z in H by reflexivity.
      replace (2 * Zpos p - 1)%Z with (2 * (Zpos p - 1) + 1)%Z in H by lia.
      apply Z.bits_inj'. intros n Hn.
      pose proof (f_equal (fun z => Z.testbit z (Z.succ n)) H) as B. cbn beta in B.
      rewrite Z.land_spec in B. rewrite Z.testbit_odd_succ in B by exact Hn.
      rewrite Z.double_bits_succ in B.
      rewrite Z.land_spec. rewrite B. rewrite !Z.bits_0. reflexivity.
    + exists (S a). rewrite Nat2Z.inj_succ, Z.pow_succ_r by lia. lia.
  - exists O. reflexivity.
Qed.

Lemma pow2_land_pred (a : nat) : Z.land (2 ^ Z.of_nat a) (2 ^ Z.of_nat a - 1) = 0%Z.
Proof.
  replace (2 ^ Z.of_nat a - 1)%Z with (Z.ones (Z.of_nat a)).
  - rewrite Z.land_ones by lia. apply Z.mod_same. apply Z.pow_nonzero; lia.
  - rewrite Z.ones_equiv. lia.
Qed.

Lemma land_pred_iff z :
  (0 < z)%Z -> (Z.land z (z - 1) = 0%Z <-> exists a : nat, z = (2 ^ Z.of_nat a)%Z).
Proof.
  intro H. split.
  - destruct z as [|p|p]; try lia. apply land_pred_pow2_pos.
  - intros [a ->]. apply pow2_land_pred.
Qed.

(** Independent specification. *)
Definition is_power_of_two (q : Q) : Prop := exists z : Z, (q == 2 ^ z)%Q.

Lemma Qpow2_nat (a : nat) : (2 ^ Z.of_nat a == inject_Z (2 ^ Z.of_nat a))%Q.
Proof.
  induction a as [|a IH]; [reflexivity|].
  rewrite Nat2Z.inj_succ. unfold Z.succ. rewrite Qpower_plus by discriminate.
  rewrite IH. rewrite Z.pow_add_r by lia. rewrite inject_Z_mult. reflexivity.
Qed.

Lemma Qpow2_neg_nat (a : nat) p :
  Zpos p = (2 ^ Z.of_nat a)%Z -> (2 ^ (- Z.of_nat a) == 1 # p)%Q.
Proof.
  intro H. rewrite Qpower_opp, Qpow2_nat, <- H. reflexivity.
Qed.

Lemma Qred_coprime n p : Z.gcd n (Zpos p) = 1%Z -> Qred (n # p) = (n # p)%Q.
Proof. intro H. apply Qcanon.Qred_identity. exact H. Qed.

Lemma qnum_qden_eq q n p :
  (q == n # p)%Q -> Z.gcd n (Zpos p) = 1%Z -> qnum q = n /\ qden q = p.
Proof.
  intros E G. unfold qnum, qden. rewrite (Qred_complete _ _ E), Qred_coprime by exact G.
  split; reflexivity.
Qed.

Lemma isPowerOfTwo_cases q :
  (0 <= q)%Q -> isPowerOfTwo q = true ->
  exists a : nat, (q == inject_Z (2 ^ Z.of_nat a))%Q \/
                  exists p, (q == 1 # p)%Q /\ Zpos p = (2 ^ Z.of_nat a)%Z.
Proof.
  intros Hq H. unfold isPowerOfTwo in H.
  destruct (Z.eqb_spec (qnum q) 0) as [|N0]; [discriminate|].
  pose proof (qnum_nonneg q Hq) as Hn.
  pose proof (qfrac_red q) as R.
  destruct (Z.eqb_spec (Zpos (qden q)) 1) as [D|D].
  - apply Z.eqb_eq in H. rewrite land_pred_iff in H by lia.
    destruct H as [a Ha]. exists a. left.
    eapply Qeq_trans; [symmetry; exact R|].
    rewrite Z.abs_eq in Ha by lia. rewrite Ha.
    assert (qden q = 1%positive) as -> by lia. reflexivity.
  - destruct (Z.eqb_spec (Z.abs (qnum q)) 1) as [N1|]; [|discriminate].
    apply Z.eqb_eq in H. rewrite land_pred_iff in H by lia.
    destruct H as [a Ha]. exists a. right. exists (qden q). split; [|exact Ha].
    eapply Qeq_trans; [symmetry; exact R|].
    replace (qnum q) with 1%Z by lia. reflexivity.
Qed.

Theorem isPowerOfTwo_spec q :
  (0 <= q)%Q -> (isPowerOfTwo q = true <-> is_power_of_two q).
Proof.
  intro Hq. split.
  - intro H. destruct (isPowerOfTwo_cases q Hq H) as (a & [E|(p & E & Hp)]).
    + exists (Z.of_nat a). rewrite Qpow2_nat. exact E.
    + exists (- Z.of_nat a)%Z. rewrite (Qpow2_neg_nat a p Hp). exact E.
  - intros [z E]. unfold isPowerOfTwo.
    destruct (Z_le_gt_dec 0 z) as [Hz|Hz].
    + set (a := Z.to_nat z). replace z with (Z.of_nat a) in E by lia.
      rewrite Qpow2_nat in E.
      destruct (qnum_qden_eq q (2 ^ Z.of_nat a) 1) as [Hn Hd].
      { exact E. } { apply Z.gcd_1_r. }
      rewrite Hn, Hd.
      assert (P : (0 < 2 ^ Z.of_nat a)%Z) by (apply Z.pow_pos_nonneg; lia).
      destruct (Z.eqb_spec (2 ^ Z.of_nat a) 0); [lia|].
      rewrite Z.abs_eq by lia. cbn [Z.eqb Pos.eqb]. rewrite pow2_land_pred. reflexivity.
    + set (a := Z.to_nat (- z)). replace z with (- Z.of_nat a)%Z in E by lia.
      assert (P : (0 < 2 ^ Z.of_nat a)%Z) by (apply Z.pow_pos_nonneg; lia).
      destruct (2 ^ Z.of_nat a)%Z as [|p|p] eqn:HP; try lia.
      rewrite (Qpow2_neg_nat a p) in E by congruence.
      destruct (qnum_qden_eq q 1 p) as [Hn Hd].
      { exact E. } { apply Z.gcd_1_l. }
      rewrite Hn, Hd. change (1 =? 0)%Z with false. change (Z.abs 1) with 1%Z. cbn match.
      change (1 =? 1)%Z with true. cbn match.
      destruct (Z.eqb_spec (Zpos p) 1) as [E1|]; [reflexivity|].
      rewrite <- HP. rewrite pow2_land_pred. reflexivity.
Qed.

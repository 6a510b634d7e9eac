(** Splitting durations: sums, writability, termination. *)
From Verif Require Import PyStr PyStrProofs RecipModel RecipProofs Pow2Proofs DurationModel.
From Coq Require Import QArith Qround Qpower Qfield.
Local Close Scope Q_scope.

Fixpoint total (l : list Q) : Q := match l with [] => 0%Q | x :: l' => (x + total l')%Q end.
Lemma total_app a b : (total (a ++ b) == total a + total b)%Q.
Proof. induction a as [|x a IH]; cbn [app total]; [ring|rewrite IH; ring]. Qed.

(** Writable with at most three dots. *)
Definition writable (q : Q) : Prop := exists (z : Z) (n : nat), n <= 3 /\ (q == 2 ^ z * dot_factor n)%Q.

Lemma nonneg_mul q k : (0 <= q)%Q -> (0 <= k)%Q -> (0 <= q * k)%Q.
Proof. apply Qmult_le_0_compat. Qed.

Theorem isPowerOfTwoWithDots_spec q : (0 <= q)%Q -> (isPowerOfTwoWithDots q = true <-> writable q).
Proof.
  intros H. unfold isPowerOfTwoWithDots. rewrite !orb_true_iff.
  assert (K : forall k, (0 <= k)%Q -> (isPowerOfTwo (q * k) = true <-> is_power_of_two (q * k))).
  { intros k K. apply isPowerOfTwo_spec, nonneg_mul; assumption. }
  rewrite (isPowerOfTwo_spec q H), (K (2 # 3)%Q), (K (4 # 7)%Q), (K (8 # 15)%Q) by discriminate.
  unfold is_power_of_two, writable. split.
  - intros [[[[z E]|[z E]]|[z E]]|[z E]]; exists z.
    + exists 0. split; [lia|]. rewrite E, dot_factor_0. ring.
    + exists 1. split; [lia|]. rewrite <- E, dot_factor_1. field.
    + exists 2. split; [lia|]. rewrite <- E, dot_factor_2. field.
    + exists 3. split; [lia|]. rewrite <- E, dot_factor_3. field.
  - intros (z & n & L & E). destruct n as [|[|[|[|n]]]]; [| | | |lia].
    + left. left. left. exists z. rewrite E, dot_factor_0. ring.
    + left. left. right. exists z. rewrite E, dot_factor_1. field.
    + left. right. exists z. rewrite E, dot_factor_2. field.
    + right. exists z. rewrite E, dot_factor_3. field.
Qed.

Lemma isPowerOfTwo_proper a b : (a == b)%Q -> isPowerOfTwo a = isPowerOfTwo b.
Proof. intros E. unfold isPowerOfTwo, qnum, qden. rewrite (Qred_complete _ _ E). reflexivity. Qed.
Lemma withDots_proper a b : (a == b)%Q -> isPowerOfTwoWithDots a = isPowerOfTwoWithDots b.
Proof.
  intros E. unfold isPowerOfTwoWithDots.
  rewrite (isPowerOfTwo_proper a b E), (isPowerOfTwo_proper (a * (2 # 3)) (b * (2 # 3))), (isPowerOfTwo_proper (a * (4 # 7)) (b * (4 # 7))),
    (isPowerOfTwo_proper (a * (8 # 15)) (b * (8 # 15))); try (rewrite E; reflexivity). reflexivity.
Qed.

(** The number of dots found, and the length without them. *)
Theorem noDots_spec q : (0 <= q)%Q ->
  match computeDurationNoDotsAndNumDots q with
  | (b, Some n) => n <= 3 /\ is_power_of_two b /\ (q == b * dot_factor n)%Q
  | (b, None) => b = q /\ ~ writable q
  end.
Proof.
  intros H. unfold computeDurationNoDotsAndNumDots.
  assert (P : forall k, (0 <= k)%Q -> (isPowerOfTwo (q * k) = true -> is_power_of_two (q * k))).
  { intros k K X. apply isPowerOfTwo_spec; [apply nonneg_mul; assumption|exact X]. }
  destruct (isPowerOfTwo q) eqn:E0.
  { split; [lia|]. split; [apply isPowerOfTwo_spec; assumption|]. rewrite dot_factor_0. ring. }
  destruct (isPowerOfTwo (q * (2 # 3))) eqn:E1.
  { split; [lia|]. split; [apply P; [discriminate|exact E1]|]. rewrite dot_factor_1. field. }
  destruct (isPowerOfTwo (q * (4 # 7))) eqn:E2.
  { split; [lia|]. split; [apply P; [discriminate|exact E2]|]. rewrite dot_factor_2. field. }
  destruct (isPowerOfTwo (q * (8 # 15))) eqn:E3.
  { split; [lia|]. split; [apply P; [discriminate|exact E3]|]. rewrite dot_factor_3. field. }
  split; [reflexivity|]. intros W. apply isPowerOfTwoWithDots_spec in W; [|exact H].
  unfold isPowerOfTwoWithDots in W. rewrite E0, E1, E2, E3 in W. discriminate.
Qed.

(** ** The splitting loop *)

(** A lone power of two 4 / 2^k. *)
Definition attempt (p : Q) : Prop := exists k : nat, (p == 2 ^ (2 - Z.of_nat k))%Q.

Lemma attempt_half p : attempt p -> attempt (p / 2).
Proof.
  intros [k E]. exists (S k). rewrite E. replace (2 - Z.of_nat (S k))%Z with (2 - Z.of_nat k + -1)%Z by lia.
  rewrite Qpower_plus by discriminate. cbn. field.
Qed.
Lemma attempt_pos p : attempt p -> (0 < p)%Q.
Proof. intros [k E]. rewrite E. apply Qpower_0_lt. reflexivity. Qed.
Lemma attempt_power p : attempt p -> is_power_of_two p.
Proof. intros [k E]. eexists. exact E. Qed.
Lemma attempt_writable p : attempt p -> writable p.
Proof. intros [k E]. exists (2 - Z.of_nat k)%Z, 0. split; [lia|]. rewrite E, dot_factor_0. ring. Qed.

Lemma Qle_bool_false a b : Qle_bool a b = false -> (b < a)%Q.
Proof.
  intros H. apply Qnot_le_lt. intros X. apply Qle_bool_iff in X. congruence.
Qed.

Lemma split_loop_sound : forall fuel p ql out r, attempt p -> (0 < ql)%Q -> isPowerOfTwoWithDots ql = false ->
  Forall (fun x => 0 < x /\ writable x)%Q out ->
  split_loop fuel p ql out = Some (Some r) ->
  (total r == total out + ql)%Q /\ Forall (fun x => 0 < x /\ writable x)%Q r.
Proof.
  induction fuel as [|fuel IH]; intros p ql out r A P N F H; [discriminate|]. cbn [split_loop] in H.
  destruct (Qle_bool (1 # 2048) p); [|discriminate].
  destruct (Qle_bool p ql) eqn:E.
  - apply Qle_bool_iff in E.
    assert (NE : ~ (ql == p)%Q).
    { intros X. rewrite (withDots_proper _ _ X) in N.
      assert (isPowerOfTwoWithDots p = true).
      { apply isPowerOfTwoWithDots_spec; [apply Qlt_le_weak, attempt_pos; exact A|apply attempt_writable; exact A]. }
      congruence. }
    assert (P' : (0 < ql - p)%Q).
    { apply -> Qlt_minus_iff. destruct (Qle_lt_or_eq _ _ E) as [X|X]; [exact X|]. exfalso. apply NE. symmetry. exact X. }
    assert (F' : Forall (fun x => 0 < x /\ writable x)%Q (out ++ [p])).
    { apply Forall_app. split; [exact F|]. constructor; [|constructor]. split; [apply attempt_pos; exact A|apply attempt_writable; exact A]. }
    destruct (isPowerOfTwoWithDots (ql - p)) eqn:W.
    + injection H as <-. split; [rewrite !total_app; cbn [total]; ring|].
      apply Forall_app. split; [exact F'|]. constructor; [|constructor]. split; [exact P'|].
      apply isPowerOfTwoWithDots_spec; [apply Qlt_le_weak; exact P'|exact W].
    + destruct (IH _ _ _ _ A P' W F' H) as (T & G). split; [rewrite T, total_app; cbn [total]; ring|exact G].
  - rewrite N in H. apply (IH _ _ _ _ (attempt_half _ A) P N F H).
Qed.

(** Enough fuel. *)
Lemma split_loop_total : forall h fuel p ql out s, (0 <= ql)%Q ->
  attempt p -> (p < (1 # 2048) * 2 ^ Z.of_nat h)%Q -> (ql * 2048 <= inject_Z (Z.of_nat s))%Q -> h + s < fuel ->
  split_loop fuel p ql out <> None.
Proof.
  intros h fuel. remember fuel as n eqn:En. clear En fuel. revert h.
  induction n as [|n IH]; intros h p ql out s P A H S L; [lia|]. cbn [split_loop].
  destruct (Qle_bool (1 # 2048) p) eqn:E; [|discriminate]. apply Qle_bool_iff in E.
  destruct (Qle_bool p ql) eqn:E2.
  - apply Qle_bool_iff in E2. destruct (isPowerOfTwoWithDots (ql - p)); [discriminate|].
    assert (S1 : (1 <= ql * 2048)%Q).
    { setoid_replace 1%Q with ((1 # 2048) * 2048)%Q by reflexivity. apply Qmult_le_compat_r; [|discriminate].
      apply (Qle_trans _ p); assumption. }
    assert (1 <= s).
    { assert (X : (1 <= inject_Z (Z.of_nat s))%Q) by (apply (Qle_trans _ _ _ S1 S)). unfold Qle in X. cbn in X. lia. }
    apply (IH h p _ _ (s - 1)); [|exact A|exact H| |lia].
    + apply -> Qle_minus_iff. exact E2.
    + rewrite Nat2Z.inj_sub by lia. unfold Z.sub. rewrite inject_Z_plus, inject_Z_opp.
      setoid_replace ((ql - p) * 2048)%Q with (ql * 2048 + - (p * 2048))%Q by ring.
      apply Qplus_le_compat; [exact S|]. apply Qopp_le_compat.
      setoid_replace (inject_Z (Z.of_nat 1)) with ((1 # 2048) * 2048)%Q by reflexivity.
      apply Qmult_le_compat_r; [exact E|discriminate].
  - destruct (isPowerOfTwoWithDots ql); [discriminate|].
    destruct h as [|h].
    + exfalso. assert (X : (p < 1 # 2048)%Q).
      { eapply Qlt_le_trans; [exact H|]. cbn. discriminate. }
      apply (Qle_not_lt _ _ E X).
    + apply (IH h _ _ _ s P); [apply attempt_half; exact A| |exact S|lia].
      apply (Qmult_lt_r _ _ 2); [reflexivity|].
      setoid_replace (p / 2 * 2)%Q with p by field.
      eapply Qlt_le_trans; [exact H|].
      rewrite Nat2Z.inj_succ. unfold Z.succ. rewrite Qpower_plus by discriminate. cbn [Qpower Qpower_positive Qmult].
      setoid_replace ((1 # 2048) * (2 ^ Z.of_nat h * 2))%Q with ((1 # 2048) * 2 ^ Z.of_nat h * 2)%Q by ring. apply Qle_refl.
Qed.

Theorem split_total q : getPowerOfTwoQuarterLengthsWithDotsAddingTo q <> None.
Proof.
  unfold getPowerOfTwoQuarterLengthsWithDotsAddingTo. destruct (isPowerOfTwoWithDots q) eqn:E; [discriminate|].
  assert (X : split_loop (split_fuel q) 4 q [] <> None).
  { destruct (Qlt_le_dec q 0) as [N|P].
    - assert (G : forall h fuel p out, (0 < p)%Q -> (p < (1 # 2048) * 2 ^ Z.of_nat h)%Q -> h < fuel -> split_loop fuel p q out <> None).
      { induction h as [|h IH]; intros fuel p out Pp H L; destruct fuel as [|fuel]; try lia; cbn [split_loop].
        - destruct (Qle_bool (1 # 2048) p) eqn:E2; [|discriminate]. exfalso. apply Qle_bool_iff in E2.
          apply (Qle_not_lt _ _ E2). eapply Qlt_le_trans; [exact H|]. discriminate.
        - destruct (Qle_bool (1 # 2048) p); [|discriminate].
          destruct (Qle_bool p q) eqn:E2.
          + exfalso. apply Qle_bool_iff in E2. apply (Qlt_irrefl 0). apply (Qlt_trans _ p); [exact Pp|].
            eapply Qle_lt_trans; [exact E2|exact N].
          + rewrite E. apply IH; [apply Qlt_shift_div_l; [reflexivity|exact Pp]| |lia].
            apply (Qmult_lt_r _ _ 2); [reflexivity|]. setoid_replace (p / 2 * 2)%Q with p by field.
            eapply Qlt_le_trans; [exact H|]. rewrite Nat2Z.inj_succ. unfold Z.succ. rewrite Qpower_plus by discriminate.
            cbn [Qpower Qpower_positive Qmult].
            setoid_replace ((1 # 2048) * (2 ^ Z.of_nat h * 2))%Q with ((1 # 2048) * 2 ^ Z.of_nat h * 2)%Q by ring. apply Qle_refl. }
      apply (G 14); [reflexivity|reflexivity|]. unfold split_fuel. lia.
    - apply (split_loop_total 14 _ _ _ _ (Z.to_nat (Qceiling (q * 2048)))); [exact P|exists 0; reflexivity|reflexivity| |].
      + rewrite Z2Nat.id; [apply Qle_ceiling|].
        assert (Y : (0 <= inject_Z (Qceiling (q * 2048)))%Q).
        { eapply Qle_trans; [|apply Qle_ceiling]. apply nonneg_mul; [exact P|discriminate]. }
        unfold Qle in Y. cbn in Y. lia.
      + unfold split_fuel. lia. }
  destruct (split_loop (split_fuel q) 4 q []) as [[l|]|]; congruence.
Qed.

Theorem split_adds q l : getPowerOfTwoQuarterLengthsWithDotsAddingTo q = Some l ->
  (total l == q)%Q /\ ((0 < q)%Q -> l = [q] \/ Forall (fun x => 0 < x /\ writable x)%Q l).
Proof.
  unfold getPowerOfTwoQuarterLengthsWithDotsAddingTo. intros H.
  destruct (isPowerOfTwoWithDots q) eqn:E; [injection H as <-; split; [cbn [total]; ring|auto]|].
  destruct (split_loop (split_fuel q) 4 q []) as [[r|]|] eqn:S; [|injection H as <-; split; [cbn [total]; ring|auto]|discriminate].
  injection H as <-.
  destruct (Qlt_le_dec 0 q) as [P|N].
  - destruct (split_loop_sound _ _ _ _ _ (ex_intro _ 0 (Qeq_refl _) : attempt 4) P E (Forall_nil _) S) as (T & F).
    split; [rewrite T; cbn [total]; ring|]. intros _. right. exact F.
  - exfalso. assert (G : forall fuel p out, (0 < p)%Q -> split_loop fuel p q out <> Some (Some r)).
    { induction fuel as [|fuel IH]; intros p out Pp; cbn [split_loop]; [discriminate|].
      destruct (Qle_bool (1 # 2048) p); [|discriminate]. destruct (Qle_bool p q) eqn:E2.
      - exfalso. apply Qle_bool_iff in E2. apply (Qlt_irrefl 0). eapply Qlt_le_trans; [exact Pp|].
        eapply Qle_trans; [exact E2|exact N].
      - rewrite E. apply IH. apply Qlt_shift_div_l; [reflexivity|exact Pp]. }
    exact (G _ 4%Q [] ltac:(reflexivity) S).
Qed.

(** Lengths that are whole numbers of 1/2048 quarter notes are always split
    into writable parts. *)
Definition on_grid (q : Q) : Prop := exists m : Z, (q == m # 2048)%Q.

Lemma attempt_small p : attempt p -> (p < 1 # 2048)%Q -> exists k : nat, (p == 2 ^ (-12 - Z.of_nat k))%Q.
Proof.
  intros [k E] H. destruct (Nat.le_gt_cases 14 k) as [L|L].
  - exists (k - 14). rewrite E. replace (2 - Z.of_nat k)%Z with (-12 - Z.of_nat (k - 14))%Z by lia. reflexivity.
  - exfalso. rewrite E in H. do 14 (destruct k as [|k]; [vm_compute in H; discriminate H|]). lia.
Qed.

Lemma grid_step p ql : attempt p -> ((1 # 2048) <= p)%Q -> on_grid ql -> on_grid (ql - p).
Proof.
  intros [k E] H [m M]. destruct (Nat.le_gt_cases 14 k) as [L|L].
  - exfalso. rewrite E in H. replace (2 - Z.of_nat k)%Z with (- Z.of_nat (k - 2))%Z in H by lia.
    rewrite Qpower_opp in H. assert (X : (2048 < 2 ^ Z.of_nat (k - 2))%Q).
    { apply (Qlt_le_trans _ (2 ^ 12)); [reflexivity|]. apply Qpower_le_compat_l; [lia|discriminate]. }
    apply (Qle_not_lt _ _ H).
    assert (P : (0 < 2 ^ Z.of_nat (k - 2))%Q) by (apply Qpower_0_lt; reflexivity).
    apply (Qmult_lt_r _ _ (2 ^ Z.of_nat (k - 2))); [exact P|].
    rewrite Qmult_comm, Qmult_inv_r by (intros Z0; rewrite Z0 in P; discriminate).
    apply (Qmult_lt_l _ _ 2048); [reflexivity|].
    setoid_replace (2048 * ((1 # 2048) * 2 ^ Z.of_nat (k - 2)))%Q with (2 ^ Z.of_nat (k - 2))%Q by ring. exact X.
  - exists (m - 2 ^ Z.of_nat (13 - k))%Z. rewrite M, E.
    do 14 (destruct k as [|k]; [vm_compute Z.pow; vm_compute Qpower; unfold Qeq, Qminus, Qplus, Qopp; cbn [Qnum Qden]; lia|]). lia.
Qed.

Lemma grid_below ql p : attempt p -> (p < 1 # 2048)%Q -> (ql < 2 * p)%Q -> (0 < ql)%Q -> ~ on_grid ql.
Proof.
  intros A H L P [m M]. destruct (attempt_small p A H) as [k E].
  assert (B : (p <= 1 # 4096)%Q).
  { rewrite E. setoid_replace (1 # 4096)%Q with (2 ^ (-12))%Q by reflexivity. apply Qpower_le_compat_l; [lia|discriminate]. }
  assert (X : (ql < 1 # 2048)%Q).
  { eapply Qlt_le_trans; [exact L|]. setoid_replace (1 # 2048)%Q with (2 * (1 # 4096))%Q by reflexivity.
    apply Qmult_le_l; [reflexivity|exact B]. }
  rewrite M in X, P. unfold Qlt in X, P. cbn in X, P. lia.
Qed.

Lemma split_loop_grid : forall fuel p ql out, attempt p -> (0 < ql)%Q -> on_grid ql -> isPowerOfTwoWithDots ql = false ->
  ((p == 4)%Q \/ (ql < 2 * p)%Q) -> split_loop fuel p ql out <> Some None.
Proof.
  induction fuel as [|fuel IH]; intros p ql out A P G N B; [discriminate|]. cbn [split_loop].
  destruct (Qle_bool (1 # 2048) p) eqn:E.
  - apply Qle_bool_iff in E. destruct (Qle_bool p ql) eqn:E2.
    + apply Qle_bool_iff in E2. destruct (isPowerOfTwoWithDots (ql - p)) eqn:W; [discriminate|].
      assert (NE : ~ (ql == p)%Q).
      { intros X. rewrite (withDots_proper _ _ X) in N.
        assert (isPowerOfTwoWithDots p = true).
        { apply isPowerOfTwoWithDots_spec; [apply Qlt_le_weak, attempt_pos; exact A|apply attempt_writable; exact A]. }
        congruence. }
      apply IH; [exact A| |apply grid_step; assumption|exact W|].
      * apply -> Qlt_minus_iff. destruct (Qle_lt_or_eq _ _ E2) as [X|X]; [exact X|]. exfalso. apply NE. symmetry. exact X.
      * destruct B as [B|B]; [left; exact B|right]. eapply Qle_lt_trans; [|exact B].
        setoid_replace ql with (ql - 0)%Q at 2 by ring. unfold Qminus. apply Qplus_le_r, Qopp_le_compat.
        apply Qlt_le_weak, attempt_pos, A.
    + rewrite N. apply IH; [apply attempt_half; exact A|exact P|exact G|exact N|right].
      setoid_replace (2 * (p / 2))%Q with p by field. apply Qle_bool_false. exact E2.
  - exfalso. apply Qle_bool_false in E. destruct B as [B|B]; [rewrite B in E; discriminate E|].
    exact (grid_below _ _ A E B P G).
Qed.

Theorem split_grid q : (0 < q)%Q -> on_grid q ->
  exists l, getPowerOfTwoQuarterLengthsWithDotsAddingTo q = Some l /\ (total l == q)%Q /\
    Forall (fun x => 0 < x /\ writable x)%Q l.
Proof.
  intros P G. destruct (getPowerOfTwoQuarterLengthsWithDotsAddingTo q) as [l|] eqn:S; [|destruct (split_total q S)].
  exists l. split; [reflexivity|]. destruct (split_adds _ _ S) as [T F]. split; [exact T|].
  unfold getPowerOfTwoQuarterLengthsWithDotsAddingTo in S. destruct (isPowerOfTwoWithDots q) eqn:E.
  - injection S as <-. constructor; [|constructor]. split; [exact P|]. apply isPowerOfTwoWithDots_spec; [apply Qlt_le_weak; exact P|exact E].
  - destruct (split_loop (split_fuel q) 4 q []) as [[r|]|] eqn:L.
    + injection S as <-.
      apply (split_loop_sound _ _ _ _ _ (ex_intro _ 0 (Qeq_refl _) : attempt 4) P E (Forall_nil _) L).
    + exfalso. apply (split_loop_grid _ _ _ _ (ex_intro _ 0 (Qeq_refl _) : attempt 4) P G E (or_introl (Qeq_refl _)) L).
    + discriminate.
Qed.

(** ** Durations *)
Definition lengths (l : list dur) : list Q := map ql_of l.

Lemma lengths_new l : (total (lengths (map new_dur l)) == total l)%Q.
Proof. induction l as [|x l IH]; cbn [map lengths total]; [reflexivity|]. unfold lengths in IH. rewrite IH. unfold ql_of, new_dur. cbn [fst snd]. ring. Qed.

Lemma durations_spec q l : getPowerOfTwoDurationsWithDotsAddingTo q = Some l ->
  l = [] \/ exists qs, l = map new_dur qs /\ (total qs == q)%Q /\ ((0 < q)%Q -> Forall (fun x => 0 < x /\ writable x)%Q qs).
Proof.
  unfold getPowerOfTwoDurationsWithDotsAddingTo.
  destruct (getPowerOfTwoQuarterLengthsWithDotsAddingTo q) as [r|] eqn:S; [|discriminate].
  destruct (split_adds _ _ S) as [T F]. intros H.
  destruct r as [|x [|y r]].
  - injection H as <-. left. reflexivity.
  - destruct (isPowerOfTwoWithDots x) eqn:W; injection H as <-; [right|left; reflexivity].
    exists [x]. split; [reflexivity|]. split; [exact T|]. intros P. destruct (F P) as [X|X]; [|exact X].
    injection X as ->. constructor; [|constructor]. split; [exact P|]. apply isPowerOfTwoWithDots_spec; [apply Qlt_le_weak; exact P|exact W].
  - injection H as <-. right. exists (x :: y :: r). split; [reflexivity|]. split; [exact T|].
    intros P. destruct (F P) as [X|X]; [discriminate X|exact X].
Qed.

Lemma durations_grid q : (0 < q)%Q -> on_grid q -> exists d l, getPowerOfTwoDurationsWithDotsAddingTo q = Some (d :: l).
Proof.
  intros P G. destruct (split_grid q P G) as (l & S & T & F). unfold getPowerOfTwoDurationsWithDotsAddingTo. rewrite S.
  destruct l as [|x [|y l]].
  - cbn [total] in T. rewrite <- T in P. discriminate P.
  - inversion F as [|? ? [Px Wx] _]; subst. apply isPowerOfTwoWithDots_spec in Wx; [|apply Qlt_le_weak; exact Px].
    rewrite Wx. eauto.
  - cbn [map]. eauto.
Qed.

(** ** Crossing *)

(** One side of a crossing as the property asks. *)
Definition side_ok (q : Q) (l : list dur) : Prop :=
  exists qs, l = map new_dur qs /\ (total qs == q)%Q /\ Forall (fun x => 0 < x /\ writable x)%Q qs.

Lemma plain_side_ok q l : (0 <= q)%Q -> plain_side q = Some (Some l) -> side_ok q l.
Proof.
  intros P. unfold plain_side. destruct (Qeq_bool q 0) eqn:E.
  { intros H. injection H as <-. apply Qeq_bool_iff in E. exists []. split; [reflexivity|]. split; [rewrite E; reflexivity|constructor]. }
  assert (P' : (0 < q)%Q).
  { destruct (Qle_lt_or_eq _ _ P) as [X|X]; [exact X|]. symmetry in X. apply Qeq_bool_iff in X. congruence. }
  destruct (isPowerOfTwoWithDots q) eqn:W.
  { intros H. injection H as <-. exists [q]. split; [reflexivity|]. split; [cbn [total]; ring|].
    constructor; [|constructor]. split; [exact P'|]. apply isPowerOfTwoWithDots_spec; assumption. }
  destruct (getPowerOfTwoDurationsWithDotsAddingTo q) as [[|d r]|] eqn:D; intros H; try discriminate.
  injection H as <-. destruct (durations_spec _ _ D) as [X|(qs & -> & T & F)]; [discriminate X|].
  exists qs. split; [reflexivity|]. split; [exact T|auto].
Qed.
Lemma plain_side_total q : plain_side q <> None.
Proof.
  unfold plain_side, getPowerOfTwoDurationsWithDotsAddingTo. destruct (Qeq_bool q 0); [discriminate|].
  destruct (isPowerOfTwoWithDots q); [discriminate|].
  pose proof (split_total q). destruct (getPowerOfTwoQuarterLengthsWithDotsAddingTo q) as [[|x [|y l]]|]; try congruence; cbn; try discriminate.
  destruct (isPowerOfTwoWithDots x); discriminate.
Qed.
Lemma plain_side_grid q : (0 <= q)%Q -> on_grid q -> exists l, plain_side q = Some (Some l).
Proof.
  intros P G. unfold plain_side. destruct (Qeq_bool q 0) eqn:E; [eauto|].
  assert (P' : (0 < q)%Q).
  { destruct (Qle_lt_or_eq _ _ P) as [X|X]; [exact X|]. symmetry in X. apply Qeq_bool_iff in X. congruence. }
  destruct (isPowerOfTwoWithDots q); [eauto|].
  destruct (durations_grid q P' G) as (d & l & ->). eauto.
Qed.

Lemma side_ok_sum q l : side_ok q l -> (total (lengths l) == q)%Q.
Proof. intros (qs & -> & T & _). rewrite lengths_new. exact T. Qed.

Lemma crossing_plain tf fuel t c : (0 <= c <= t)%Q -> on_grid t -> on_grid c ->
  exists o1 o2, crossing_split tf (S fuel) t c = Crossed o1 o2 /\ side_ok c o1 /\ side_ok (t - c) o2.
Proof.
  intros [P1 P2] [m M] G2.
  assert (G3 : on_grid (t - c)).
  { destruct G2 as [k K]. exists (m - k)%Z. rewrite M, K. unfold Qeq, Qminus, Qplus, Qopp. cbn [Qnum Qden]. lia. }
  assert (P3 : (0 <= t - c)%Q) by (apply -> Qle_minus_iff; exact P2).
  destruct (plain_side_grid c P1 G2) as [o1 S1]. destruct (plain_side_grid _ P3 G3) as [o2 S2].
  exists o1, o2. cbn [crossing_split]. rewrite S1, S2. split; [reflexivity|].
  split; apply plain_side_ok; assumption.
Qed.

(** A tuplet: every part is shown with the multiplier [m]. *)
Definition side_tuplet (m q : Q) (l : list dur) : Prop :=
  (total (lengths l) == q)%Q /\ Forall (fun d => 0 < fst d /\ writable (fst d) /\ snd d == m)%Q l.

Lemma tuplet_element_spec a t : forall k fuel q, (forall j, j < k -> isPowerOfTwoWithDots (q / inject_Z a ^ Z.of_nat j) = true) ->
  isPowerOfTwoWithDots (q / inject_Z a ^ Z.of_nat k) = false -> k < fuel -> (0 < a)%Z -> (q == t)%Q ->
  exists e, tuplet_element fuel q a = Some e /\ (e == t / inject_Z a ^ Z.of_nat k)%Q.
Proof.
  intros k fuel q. revert k q t. induction fuel as [|fuel IH]; intros k q t H N L P E; [lia|]. cbn [tuplet_element].
  assert (NZ : ~ (inject_Z a == 0)%Q) by (unfold Qeq; cbn; lia).
  destruct k as [|k].
  - cbn [Z.of_nat Qpower] in *. rewrite <- (withDots_proper q (q / 1)) in N by field. rewrite N. exists q.
    split; [reflexivity|]. rewrite E. field.
  - pose proof (H 0 ltac:(lia)) as H0. cbn [Z.of_nat Qpower] in H0. rewrite <- (withDots_proper q (q / 1)) in H0 by field. rewrite H0.
    assert (STEP : forall j, (q / inject_Z a / inject_Z a ^ Z.of_nat j == q / inject_Z a ^ Z.of_nat (S j))%Q).
    { intros j. rewrite Nat2Z.inj_succ. unfold Z.succ. rewrite Qpower_plus by exact NZ.
      pose proof (Qpower_not_0 _ (Z.of_nat j) NZ) as NW. revert NW. generalize (inject_Z a ^ Z.of_nat j)%Q. intros w NW.
      change (inject_Z a ^ 1)%Q with (inject_Z a). field. split; assumption. }
    destruct (IH k (q / inject_Z a)%Q (t / inject_Z a)%Q) as (e & T & Q).
    + intros j J. rewrite (withDots_proper _ _ (STEP j)). apply H. lia.
    + rewrite (withDots_proper _ _ (STEP k)). exact N.
    + lia.
    + exact P.
    + rewrite E. reflexivity.
    + exists e. split; [exact T|]. rewrite Q, <- E. rewrite STEP, E. reflexivity.
Qed.

Lemma set_multiplier sh qs : (total (lengths (map (fun d => (fst d, sh)) (map new_dur qs))) == total qs * sh)%Q.
Proof.
  induction qs as [|x qs IH]; cbn [map lengths total]; [ring|]. unfold lengths in IH. rewrite IH. unfold ql_of, new_dur. cbn [fst snd]. ring.
Qed.

Lemma crossing_tuplet tf fuel t c a m0 k e a1 m n : (0 <= c <= t)%Q -> writable t ->
  tf (1 # qden c)%Q = Some (a, m0) -> (0 < a)%Z -> k <= S fuel ->
  (forall j, j < k -> writable (t / inject_Z a ^ Z.of_nat j)) -> ~ writable (t / inject_Z a ^ Z.of_nat k) ->
  (forall e', (e' == e)%Q -> tf e' = Some (a1, m)) -> (e == t / inject_Z a ^ Z.of_nat k)%Q ->
  (0 < m)%Q -> (inject_Z (a ^ Z.of_nat k) * m == inject_Z n)%Q ->
  on_grid (t / m) -> on_grid (c / m) ->
  exists o1 o2, crossing_split tf (S (S fuel)) t c = Crossed o1 o2 /\
    ((side_ok c o1 /\ side_ok (t - c) o2) \/ (side_tuplet m c o1 /\ side_tuplet m (t - c) o2)).
Proof.
  intros [P1 P2] W T0 A K H N TE E M I G1 G2.
  assert (Pt : (0 <= t)%Q) by (eapply Qle_trans; eassumption).
  assert (P3 : (0 <= t - c)%Q) by (apply -> Qle_minus_iff; exact P2).
  assert (NZ : ~ (inject_Z a == 0)%Q) by (unfold Qeq; cbn; lia).
  assert (Pw : forall j, (0 < inject_Z a ^ Z.of_nat j)%Q) by (intros j; apply Qpower_0_lt; unfold Qlt; cbn; lia).
  assert (Pj : forall j, (0 <= t / inject_Z a ^ Z.of_nat j)%Q).
  { intros j. apply Qle_shift_div_l; [apply Pw|]. setoid_replace (0 * inject_Z a ^ Z.of_nat j)%Q with 0%Q by ring. exact Pt. }
  remember (S fuel) as f eqn:Ef. cbn [crossing_split].
  destruct (plain_side c) as [s1|] eqn:S1; [|destruct (plain_side_total c S1)].
  destruct (plain_side (t - c)) as [s2|] eqn:S2; [|destruct (plain_side_total _ S2)].
  assert (MAIN : exists o1 o2, match tf (1 # qden c)%Q with
              | None => CrossingError
              | Some (actual0, _) =>
                  match tuplet_element (S f) t actual0 with
                  | None => CrossingLoop
                  | Some element =>
                      match tf element with
                      | None => CrossingError
                      | Some (_, mult) =>
                          let actual := Qfloor (t / element) in
                          let normal := Qfloor (inject_Z actual * mult) in
                          let shown := (inject_Z normal / inject_Z actual)%Q in
                          match crossing_split tf f (t / mult)%Q (c / mult)%Q with
                          | Crossed o1 o2 =>
                              let set (d : dur) := (fst d, shown) in
                              Crossed (map set o1) (map set o2)
                          | e => e
                          end
                      end
                  end
              end = Crossed o1 o2 /\ side_tuplet m c o1 /\ side_tuplet m (t - c) o2).
  { rewrite T0.
    destruct (tuplet_element_spec a t k (S f) t) as (e' & TE1 & TE2).
    - intros j J. apply isPowerOfTwoWithDots_spec; [apply Pj|apply H; exact J].
    - destruct (isPowerOfTwoWithDots (t / inject_Z a ^ Z.of_nat k)) eqn:X; [|reflexivity]. exfalso. apply N.
      apply isPowerOfTwoWithDots_spec; [apply Pj|exact X].
    - subst f. lia.
    - exact A.
    - reflexivity.
    - rewrite TE1. rewrite (TE e') by (rewrite TE2, E; reflexivity). cbv zeta.
      assert (G3 : (0 <= c / m <= t / m)%Q).
      { split.
        - apply Qle_shift_div_l; [exact M|]. setoid_replace (0 * m)%Q with 0%Q by ring. exact P1.
        - apply Qmult_le_compat_r; [exact P2|]. apply Qlt_le_weak, Qinv_lt_0_compat. exact M. }
      subst f. destruct (crossing_plain tf fuel _ _ G3 G1 G2) as (o1 & o2 & CR & (q1 & -> & Q1 & F1) & (q2 & -> & Q2 & F2)).
      rewrite CR.
      assert (NM : ~ (m == 0)%Q) by (intros X; rewrite X in M; discriminate M).
      assert (NT : ~ (t == 0)%Q).
      { intros X. destruct W as (z & d & D & W). rewrite X in W. assert (Y : (0 < 2 ^ z * dot_factor d)%Q).
        { apply Qmult_lt_0_compat; [apply Qpower_0_lt; reflexivity|].
          destruct d as [|[|[|[|d]]]]; [reflexivity|reflexivity|reflexivity|reflexivity|lia]. }
        rewrite <- W in Y. discriminate Y. }
      assert (AE : Qfloor (t / e') = (a ^ Z.of_nat k)%Z).
      { rewrite (Qfloor_comp _ (inject_Z (a ^ Z.of_nat k))); [apply Qfloor_Z|].
        rewrite TE2. rewrite Zpower_Qpower by lia. field. split; [apply Qpower_not_0; exact NZ|exact NT]. }
      assert (NE : Qfloor (inject_Z (Qfloor (t / e')) * m) = n).
      { rewrite AE. rewrite (Qfloor_comp _ _ I). apply Qfloor_Z. }
      assert (SH : (inject_Z (Qfloor (inject_Z (Qfloor (t / e')) * m)) / inject_Z (Qfloor (t / e')) == m)%Q).
      { rewrite NE, AE, <- I. field. intros X. rewrite Zpower_Qpower in X by lia. apply (Qpower_not_0 _ _ NZ X). }
      revert SH. generalize (inject_Z (Qfloor (inject_Z (Qfloor (t / e')) * m)) / inject_Z (Qfloor (t / e')))%Q. intros sh SH.
      do 2 eexists. split; [reflexivity|].
      assert (FF : forall qs, Forall (fun x => 0 < x /\ writable x)%Q qs ->
                 Forall (fun d => 0 < fst d /\ writable (fst d) /\ snd d == m)%Q (map (fun d : dur => (fst d, sh)) (map new_dur qs))).
      { intros qs F. apply Forall_forall. intros d D. apply in_map_iff in D. destruct D as (d' & <- & D).
        apply in_map_iff in D. destruct D as (x & <- & D). cbn [fst snd new_dur].
        rewrite Forall_forall in F. destruct (F x D) as [X Y]. split; [exact X|]. split; [exact Y|exact SH]. }
      split; (split; [|apply FF; assumption]).
      + rewrite set_multiplier, Q1, SH. field. exact NM.
      + rewrite set_multiplier, Q2, SH. field. exact NM. }
  destruct MAIN as (o1 & o2 & ME & MS).
  assert (WB : isPowerOfTwoWithDots t = true) by (apply isPowerOfTwoWithDots_spec; assumption).
  destruct s1 as [s1|]; destruct s2 as [s2|].
  - exists s1, s2. split; [reflexivity|]. left. split; apply plain_side_ok; assumption.
  - exists o1, o2. rewrite WB. split; [exact ME|right; exact MS].
  - exists o1, o2. rewrite WB. split; [exact ME|right; exact MS].
  - exists o1, o2. rewrite WB. split; [exact ME|right; exact MS].
Qed.

(** ** The undotted length of a rhythm text *)
Definition undot (c : ascii) : ascii := if Ascii.eqb c "." then "Z"%char else c.

Lemma undot_digit c : is_digit (undot c) = is_digit c.
Proof. unfold undot. destruct (Ascii.eqb_spec c "."); [subst; reflexivity|reflexivity]. Qed.
Lemma undot_other c x : x <> "."%char -> x <> "Z"%char -> Ascii.eqb x (undot c) = Ascii.eqb x c.
Proof.
  intros H1 H2. unfold undot. destruct (Ascii.eqb_spec c "."); [subst|reflexivity].
  destruct (Ascii.eqb_spec x "Z"); [contradiction|]. destruct (Ascii.eqb_spec x "."); [contradiction|reflexivity].
Qed.
Lemma undot_id c : is_digit c = true -> undot c = c.
Proof. unfold undot. destruct (Ascii.eqb_spec c "."); [subst; discriminate|reflexivity]. Qed.

Lemma span_undot s : span is_digit (map undot s) = (fst (span is_digit s), map undot (snd (span is_digit s))).
Proof.
  induction s as [|c s IH]; [reflexivity|]. cbn [map span]. rewrite undot_digit. destruct (is_digit c) eqn:E; [|reflexivity].
  rewrite IH. destruct (span is_digit s) as [a b]. cbn [fst snd]. rewrite undot_id by exact E. reflexivity.
Qed.
Lemma match_pct_undot s : match_pct (map undot s) = match_pct s.
Proof.
  unfold match_pct. rewrite span_undot. destruct (span is_digit s) as [[|c g] [|x r]]; cbn [fst snd map]; try reflexivity.
  assert (P : forall (A : Type) (a b : A), (match undot x with "%"%char => a | _ => b end) = (match x with "%"%char => a | _ => b end)).
  { intros A a b. unfold undot. destruct (Ascii.eqb_spec x "."); [subst; reflexivity|reflexivity]. }
  destruct (Ascii.eqb_spec x "%") as [->|NE].
  - change (undot "%") with "%"%char. rewrite span_undot. destruct (span is_digit r) as [[|d g2] t]; reflexivity.
  - specialize (P bool true false).
    destruct x as [[] [] [] [] [] [] [] []]; try (exfalso; apply NE; reflexivity); try reflexivity.
Qed.
Lemma search_pct_undot s : search_pct (map undot s) = search_pct s.
Proof.
  induction s as [|c s IH]; [reflexivity|]. cbn [map search_pct]. change (undot c :: map undot s) with (map undot (c :: s)).
  rewrite match_pct_undot, IH. reflexivity.
Qed.
Lemma search_digits_undot s : search_digits (map undot s) = search_digits s.
Proof.
  induction s as [|c s IH]; [reflexivity|]. cbn [map search_digits]. rewrite undot_digit, IH.
  destruct (is_digit c); [|reflexivity]. change (undot c :: map undot s) with (map undot (c :: s)). rewrite span_undot. reflexivity.
Qed.
Lemma split_undot s : split_char " " (map undot s) = map (map undot) (split_char " " s).
Proof.
  induction s as [|c s IH]; [reflexivity|]. cbn [map split_char].
  replace (Ascii.eqb (undot c) " ") with (Ascii.eqb c " ") by (unfold undot; destruct (Ascii.eqb_spec c "."); [subst; reflexivity|reflexivity]).
  rewrite IH. destruct (Ascii.eqb c " "); [reflexivity|]. destruct (split_char " " s); reflexivity.
Qed.
Lemma first_undot s : first_subtoken (map undot s) = map undot (first_subtoken s).
Proof. unfold first_subtoken. rewrite split_undot. destruct (split_char " " s); reflexivity. Qed.
Lemma char_in_undot s : char_in "q" (map undot s) = char_in "q" s.
Proof.
  unfold char_in. induction s as [|c s IH]; [reflexivity|]. cbn [map existsb]. rewrite IH, undot_other by discriminate. reflexivity.
Qed.
Lemma count_undot s : count_char "." (map undot s) = 0.
Proof.
  unfold count_char. induction s as [|c s IH]; [reflexivity|]. cbn [map filter]. unfold undot at 1.
  destruct (Ascii.eqb_spec c "."); [exact IH|]. destruct (Ascii.eqb_spec "." c); [subst; contradiction|exact IH].
Qed.

Lemma dot_factor_closed n : (dot_factor n == 2 - (1 # 2) ^ Z.of_nat n)%Q.
Proof.
  unfold dot_factor. rewrite Z.pow_add_r by lia. change (2 ^ 1)%Z with 2%Z. unfold Z.sub. rewrite inject_Z_plus, inject_Z_mult.
  rewrite Zpower_Qpower by lia. setoid_replace (1 # 2)%Q with (/ 2)%Q by reflexivity. rewrite Qinv_power.
  pose proof (Qpower_not_0 2 (Z.of_nat n) ltac:(discriminate)) as NZ. change (inject_Z 2) with 2%Q. revert NZ.
  generalize (2 ^ Z.of_nat n)%Q. intros w NW. setoid_replace (inject_Z (- (1))) with (- (1))%Q by reflexivity. unfold Qdiv. field. exact NW.
Qed.

Theorem noDots_length s scale : 
  match fst (recipToDuration [] s scale), fst (recipToDurationNoDots [] s scale) with
  | Some d, Some d' => (d == d' * (2 - (1 # 2) ^ Z.of_nat (count_char "." (first_subtoken s))))%Q
  | None, None => True
  | _, _ => False
  end.
Proof.
  unfold recipToDurationNoDots. fold undot. unfold recipToDuration. cbn [cache_get].
  change (map (fun ch => if Ascii.eqb ch "." then "Z"%char else ch) s) with (map undot s).
  unfold recip_eval. rewrite char_in_undot, first_undot, search_pct_undot, search_digits_undot, count_undot.
  destruct (char_in "q" s); [cbn [fst]; ring|].
  destruct (search_pct (first_subtoken s)) as [[g1 g2]|].
  - destruct (mk_frac _ _); [|exact I]. cbn [fst]. rewrite <- dot_factor_closed, dot_factor_0. ring.
  - destruct (search_digits (first_subtoken s)) as [g|]; [|cbn [fst]; ring].
    assert (Z : forall (a b : recip_result), (match g with "0"%char :: _ => a | _ => b end) = a \/ (match g with "0"%char :: _ => a | _ => b end) = b).
    { intros a b. destruct g as [|[[] [] [] [] [] [] [] []] g]; auto. }
    destruct g as [|c g]; [cbn; exact I|].
    destruct (Ascii.eqb_spec c "0") as [->|NE].
    + cbn [fst]. rewrite <- dot_factor_closed, dot_factor_0. ring.
    + assert (R : forall dots, match (match c :: g with "0"%char :: _ => Rhythm (inject_Z (2 ^ Z.of_nat (count_char "0" (c :: g))) * dot_factor dots * scale)%Q
                 | _ => match mk_frac 1 (parse_N (c :: g)) with None => RhythmError | Some q => Rhythm (q * dot_factor dots * scale)%Q end end)
                with x => x end = match mk_frac 1 (parse_N (c :: g)) with None => RhythmError | Some q => Rhythm (q * dot_factor dots * scale)%Q end).
      { intros dots. destruct c as [[] [] [] [] [] [] [] []]; try reflexivity. exfalso. apply NE. reflexivity. }
      cbn beta iota in R. rewrite !R. destruct (mk_frac 1 _); [|exact I]. cbn [fst]. rewrite <- dot_factor_closed, dot_factor_0. ring.
Qed.

(** Reading without dots, after any calls at the same scale. *)
Theorem noDots_history sc h s : (forall call, In call h -> snd call = sc) ->
  fst (recipToDurationNoDots (run_recip h) s sc) = fst (recipToDurationNoDots [] s sc).
Proof. intros H. unfold recipToDurationNoDots. apply recip_history_independent. exact H. Qed.

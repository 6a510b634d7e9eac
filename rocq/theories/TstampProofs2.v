(** Lemmas about the decimal numerals of time stamps, and about rounding. *)
From Coq Require Import QArith Qround Qabs Qreduction Qpower Lqa.
From Verif Require Import PyStr PyStrProofs RecipModel TstampModel TstampProofs.
Local Open Scope Q_scope.

(** ** Decimal numerals *)

Lemma ten_to_S k : ten_to (S k) = (10 * ten_to k)%N.
Proof. unfold ten_to. rewrite Nnat.Nat2N.inj_succ, N.pow_succ_r'. reflexivity. Qed.
Lemma ten_to_pos k : (0 < ten_to k)%N.
Proof. unfold ten_to. assert (X := N.pow_nonzero 10 (N.of_nat k)). lia. Qed.
Lemma ten_to_plus a b : ten_to (a + b) = (ten_to a * ten_to b)%N.
Proof. unfold ten_to. rewrite Nnat.Nat2N.inj_add. apply N.pow_add_r. Qed.

Lemma parse_from_app n a b : parse_from n (a ++ b) = parse_from (parse_from n a) b.
Proof. unfold parse_from. apply fold_left_app. Qed.
Lemma last_length k : forall n, length (last_digits k n) = k.
Proof. induction k as [|k IH]; intros n; cbn [last_digits]; [reflexivity|]. rewrite app_length, IH. cbn. lia. Qed.
Lemma last_are_digits k : forall n, forallb is_digit (last_digits k n) = true.
Proof. induction k as [|k IH]; intros n; cbn [last_digits]; [reflexivity|]. rewrite forallb_app, IH. cbn [forallb]. rewrite is_digit_char; [reflexivity|]. apply N.mod_lt. lia. Qed.
Lemma last_parse k : forall n m, parse_from m (last_digits k n) = (m * ten_to k + n mod ten_to k)%N.
Proof.
  induction k as [|k IH]; intros n m; cbn [last_digits].
  - cbn. change (ten_to 0) with 1%N. rewrite N.mod_1_r. lia.
  - rewrite parse_from_app, IH. unfold parse_from. cbn [fold_left]. rewrite digit_val_char by (apply N.mod_lt; lia). rewrite ten_to_S.
    assert (T := ten_to_pos k). rewrite (N.mod_mul_r n 10 (ten_to k)) by lia. lia.
Qed.
Lemma whole_parse k n : parse_N (show_N (n / ten_to k) ++ last_digits k n) = n.
Proof.
  rewrite parse_N_from, parse_from_app, <- parse_N_from, parse_show_N, last_parse. assert (T := ten_to_pos k). rewrite (N.div_mod' n (ten_to k)) at 3. lia.
Qed.

Lemma tenp k : Zpos (N.succ_pos (N.pred (ten_to k))) = Z.of_N (ten_to k).
Proof. assert (T := ten_to_pos k). change (Zpos (N.succ_pos (N.pred (ten_to k)))) with (Z.of_N (Npos (N.succ_pos (N.pred (ten_to k))))). rewrite N.succ_pos_spec, N.succ_pred by lia. reflexivity. Qed.

Definition tens (k : nat) : Q := inject_Z (Z.of_N (ten_to k)).
Lemma tens_pos k : 0 < tens k.
Proof. unfold tens. assert (T := ten_to_pos k). change 0 with (inject_Z 0). rewrite <- Zlt_Qlt. lia. Qed.

Lemma read_point a b : forallb is_digit a = true -> forallb is_digit b = true -> a <> [] ->
  exists q, read_decimal (a ++ "."%char :: b) = Some q /\ q == inject_Z (Z.of_N (parse_N (a ++ b))) / tens (length b).
Proof.
  intros A B N. unfold read_decimal. rewrite span_app_all; [|exact A|reflexivity]. rewrite B. change (Ascii.eqb "." ".") with true. cbn [andb].
  assert (L : Nat.eqb (length (a ++ b)) 0 = false) by (destruct a; [contradiction|reflexivity]). rewrite L. cbn [negb].
  eexists. split; [reflexivity|]. unfold tens. rewrite <- tenp. rewrite Qmake_Qdiv. reflexivity.
Qed.
Lemma read_whole a : forallb is_digit a = true -> a <> [] -> read_decimal a = Some (inject_Z (Z.of_N (parse_N a))).
Proof. intros A N. unfold read_decimal. rewrite (span_all _ _ A). destruct a; [contradiction|reflexivity]. Qed.

Lemma show_nonempty n : show_N n <> [].
Proof. destruct (show_N_cons n) as (c & s & -> & _). discriminate. Qed.

Lemma read_fixed k n : exists q, read_decimal (fixed_point k n) = Some q /\ q == inject_Z (Z.of_N n) / tens k.
Proof.
  destruct (read_point (show_N (n / ten_to k)) (last_digits k n) (show_N_digits _) (last_are_digits _ _) (show_nonempty _)) as (q & E & V).
  exists q. split; [exact E|]. rewrite V, whole_parse, last_length. reflexivity.
Qed.

Lemma strip_spec s : exists j, s = strip_zeros s ++ repeat "0"%char j.
Proof.
  induction s as [|c s (j & E)]; [exists 0%nat; reflexivity|]. cbn [strip_zeros]. destruct (strip_zeros s) as [|x t] eqn:T.
  - destruct (Ascii.eqb c "0") eqn:Z; [apply Ascii.eqb_eq in Z; subst c; exists (S j); cbn; f_equal; exact E|]. exists j. cbn. f_equal. exact E.
  - exists j. cbn. f_equal. exact E.
Qed.
Lemma parse_zeros j : forall m, parse_from m (repeat "0"%char j) = (m * ten_to j)%N.
Proof. induction j as [|j IH]; intros m; [cbn; change (ten_to 0) with 1%N; lia|]. cbn [repeat]. unfold parse_from in *. cbn [fold_left]. rewrite IH, ten_to_S. change (digit_val "0") with 0%N. lia. Qed.

Lemma read_short k n : exists q, read_decimal (short_point k n) = Some q /\ q == inject_Z (Z.of_N n) / tens k.
Proof.
  assert (W := whole_parse k n). destruct (strip_spec (last_digits k n)) as (j & E). assert (L := last_length k n). assert (D := last_are_digits k n).
  set (t := strip_zeros (last_digits k n)) in *. rewrite E in W, L, D. rewrite app_length, repeat_length in L. rewrite forallb_app in D. apply andb_true_iff in D. destruct D as [D _].
  rewrite app_assoc, parse_N_from, parse_from_app, parse_zeros, <- parse_N_from in W.
  assert (V : forall P, (P * ten_to j)%N = n -> inject_Z (Z.of_N P) / tens (length t) == inject_Z (Z.of_N n) / tens k).
  { intros P HP. rewrite <- HP, <- L. unfold tens. rewrite ten_to_plus, !N2Z.inj_mul, !inject_Z_mult. field.
    assert (T1 := tens_pos (length t)). assert (T2 := tens_pos j). unfold tens in T1, T2. split; lra. }
  unfold short_point. fold t. destruct t as [|c t'] eqn:T.
  - rewrite app_nil_r in W. exists (inject_Z (Z.of_N (parse_N (show_N (n / ten_to k))))). split; [apply read_whole; [apply show_N_digits|apply show_nonempty]|].
    specialize (V _ W). rewrite <- V. cbn [length]. change (tens 0) with 1. field.
  - destruct (read_point (show_N (n / ten_to k)) (c :: t') (show_N_digits _) D (show_nonempty _)) as (q & Eq & VQ). exists q. split; [exact Eq|]. rewrite VQ. apply V. exact W.
Qed.

(** ** Rounding *)

Lemma round_close x : Qabs (inject_Z (round_half_even x) - x) <= 1 # 2.
Proof.
  unfold round_half_even. assert (A := Qfloor_le x). assert (B := Qlt_floor x). rewrite inject_Z_plus in B. change (inject_Z 1) with 1 in B.
  apply Qabs_Qle_condition. destruct (Qcompare_spec (x - inject_Z (Qfloor x)) (1 # 2)) as [C|C|C].
  - destruct (Z.even (Qfloor x)); rewrite ?inject_Z_plus; change (inject_Z 1) with 1; lra.
  - lra.
  - rewrite inject_Z_plus. change (inject_Z 1) with 1. lra.
Qed.
Lemma round_nonneg x : 0 <= x -> (0 <= round_half_even x)%Z.
Proof.
  intros H. assert (F : (0 <= Qfloor x)%Z) by (change 0%Z with (Qfloor 0); apply Qfloor_resp_le; exact H).
  unfold round_half_even. destruct (Qcompare _ _); [destruct (Z.even _)|..]; lia.
Qed.

Lemma decimals_close k x : 0 <= x -> Qabs (inject_Z (Z.of_N (decimals k x)) / tens k - x) <= (1 # 2) / tens k.
Proof.
  intros H. unfold decimals. fold (tens k). assert (T := tens_pos k). assert (X0 : 0 <= x * tens k) by (apply Qmult_le_0_compat; lra).
  rewrite Z2N.id by (apply round_nonneg; exact X0). assert (R := round_close (x * tens k)).
  assert (E : inject_Z (round_half_even (x * tens k)) / tens k - x == (inject_Z (round_half_even (x * tens k)) - x * tens k) / tens k) by (field; lra).
  rewrite E. unfold Qdiv. rewrite Qabs_Qmult. rewrite (Qabs_pos (/ tens k)) by (apply Qinv_le_0_compat; lra).
  apply Qmult_le_compat_r; [exact R|]. apply Qinv_le_0_compat. lra.
Qed.

(** ** Length of numerals *)

Lemma show_aux_length fuel : forall n acc j, (n < ten_to j)%N -> (1 <= j)%nat -> (length (show_aux fuel n acc) <= j + length acc)%nat.
Proof.
  induction fuel as [|f IH]; intros n acc j H J; cbn [show_aux]; [lia|]. destruct (N.ltb_spec n 10) as [|G]; [cbn [length]; lia|].
  destruct j as [|[|j]]; [lia|change (ten_to 1) with 10%N in H; lia|]. specialize (IH (n / 10)%N (digit_char (n mod 10) :: acc) (S j)). cbn [length] in IH. rewrite ten_to_S in H.
  assert (n / 10 < ten_to (S j))%N by (apply N.div_lt_upper_bound; lia). specialize (IH H0). lia.
Qed.
Lemma show_length n j : (n < ten_to j)%N -> (1 <= j)%nat -> (length (show_N n) <= j)%nat.
Proof. intros H J. unfold show_N. assert (X := show_aux_length (S (N.size_nat n)) n [] j H J). cbn [length] in X. lia. Qed.

Lemma tens_mono a b : (a <= b)%nat -> tens a <= tens b.
Proof.
  intros H. unfold tens. rewrite <- Zle_Qle. replace b with (a + (b - a))%nat by lia. rewrite ten_to_plus. assert (T := ten_to_pos a). assert (T2 := ten_to_pos (b - a)). nia.
Qed.
Lemma places_ge f j : 0 <= f -> f < tens j -> (1 <= j <= 6)%nat -> (6 - j <= places6g f)%nat.
Proof.
  intros F H J. unfold places6g. assert (L : (length (show_N (Z.to_N (Qfloor f))) <= j)%nat); [|lia]. apply show_length; [|lia].
  assert (A := Qfloor_le f). assert (B : inject_Z (Qfloor f) < tens j) by lra. unfold tens in B. rewrite <- Zlt_Qlt in B.
  assert (0 <= Qfloor f)%Z by (change 0%Z with (Qfloor 0); apply Qfloor_resp_le; exact F). lia.
Qed.

(** ** Floating-point arithmetic *)

(** A rounding of relative error at most 2^-50 (doubles have 2^-53). *)
Definition eps : Q := 1 # 1125899906842624.
Definition accurate (flt : Q -> Q) : Prop := forall x, Qabs (flt x - x) <= Qabs x * eps.

Lemma abs_step flt u v c : accurate flt -> Qabs (u - v) <= c -> Qabs v <= 5000 -> c <= 1 -> Qabs (flt u - v) <= c + 5001 * eps.
Proof.
  intros A U V C. specialize (A u). apply Qabs_Qle_condition in U. apply Qabs_Qle_condition in V.
  assert (B : Qabs u <= 5001) by (apply Qabs_Qle_condition; lra).
  assert (M : Qabs u * eps <= 5001 * eps) by (apply Qmult_le_compat_r; [exact B|unfold eps; lra]).
  assert (A' : Qabs (flt u - u) <= 5001 * eps) by lra. apply Qabs_Qle_condition in A'. apply Qabs_Qle_condition. lra.
Qed.

(** The beat of an offset in a measure. *)
Definition beat_of (x : Q) (m : option positive) : Q := x / 4 * inject_Z (Zpos (meter_denominator m)) + 1.

Lemma rel_step flt u v c : accurate flt -> 0 <= v -> Qabs (u - v) <= v * c -> 0 <= c -> c <= 1 -> Qabs (flt u - v) <= v * (c + 2 * eps).
Proof.
  intros A V U C0 C1. specialize (A u). assert (VC : v * c <= v * 1) by (rewrite (Qmult_comm v c), (Qmult_comm v 1); apply Qmult_le_compat_r; assumption).
  apply Qabs_Qle_condition in U. assert (B : Qabs u <= 2 * v) by (apply Qabs_Qle_condition; lra).
  assert (M : Qabs u * eps <= 2 * v * eps) by (apply Qmult_le_compat_r; [exact B|unfold eps; lra]).
  assert (A' : Qabs (flt u - u) <= 2 * v * eps) by lra. apply Qabs_Qle_condition in A'. apply Qabs_Qle_condition.
  setoid_replace (v * (c + 2 * eps)) with (v * c + 2 * v * eps) by ring. lra.
Qed.
Lemma rel_scale u v c s : 0 <= s -> Qabs (u - v) <= v * c -> Qabs (u * s - v * s) <= v * s * c.
Proof.
  intros S U. setoid_replace (u * s - v * s) with ((u - v) * s) by ring. rewrite Qabs_Qmult, (Qabs_pos s S). setoid_replace (v * s * c) with (v * c * s) by ring. apply Qmult_le_compat_r; assumption.
Qed.

Lemma beat_close flt x m : accurate flt -> 0 <= x -> Qabs (offset_to_beat flt x m - beat_of x m) <= beat_of x m * (8 * eps).
Proof.
  intros A X. unfold offset_to_beat, beat_of. set (D := inject_Z (Zpos (meter_denominator m))). assert (D0 : 0 <= D) by (unfold D; change 0 with (inject_Z 0); rewrite <- Zle_Qle; lia).
  assert (S1 : Qabs (flt x - x) <= x * (2 * eps)).
  { eapply Qle_trans; [apply (rel_step flt x x 0 A X)|]; [|lra|lra|]; [setoid_replace (x - x) with 0 by ring; cbn; lra|]. rewrite Qplus_0_l. apply Qle_refl. }
  assert (X4 : 0 <= x / 4) by (apply Qle_shift_div_l; lra).
  assert (S2 : Qabs (flt (flt x / 4) - x / 4) <= x / 4 * (4 * eps)).
  { assert (R := rel_scale _ _ _ (/ 4) ltac:(cbn; lra) S1). assert (R2 := rel_step flt _ _ _ A X4 R ltac:(unfold eps; lra) ltac:(unfold eps; lra)).
    setoid_replace (x / 4 * (4 * eps)) with (x / 4 * (2 * eps + 2 * eps)) by ring. exact R2. }
  assert (XD : 0 <= x / 4 * D) by (apply Qmult_le_0_compat; assumption).
  assert (S3 : Qabs (flt (flt (flt x / 4) * D) - x / 4 * D) <= x / 4 * D * (6 * eps)).
  { assert (R := rel_scale _ _ _ D D0 S2). assert (R2 := rel_step flt _ _ _ A XD R ltac:(unfold eps; lra) ltac:(unfold eps; lra)).
    setoid_replace (x / 4 * D * (6 * eps)) with (x / 4 * D * (4 * eps + 2 * eps)) by ring. exact R2. }
  set (v := x / 4 * D) in *. set (u := flt (flt (flt x / 4) * D)) in *.
  assert (S4 : Qabs (u + 1 - (v + 1)) <= (v + 1) * (6 * eps)).
  { setoid_replace (u + 1 - (v + 1)) with (u - v) by ring. eapply Qle_trans; [exact S3|]. setoid_replace ((v + 1) * (6 * eps)) with (v * (6 * eps) + 6 * eps) by ring. unfold eps. lra. }
  assert (V1 : 0 <= v + 1) by lra. assert (R2 := rel_step flt _ _ _ A V1 S4 ltac:(unfold eps; lra) ltac:(unfold eps; lra)). setoid_replace ((v + 1) * (8 * eps)) with ((v + 1) * (6 * eps + 2 * eps)) by ring. exact R2.
Qed.

(** What is read from a written number. *)
Lemma written_close flt f j : accurate flt -> 0 <= f -> f < tens j -> (1 <= j <= 3)%nat ->
  exists r, read_decimal (float_to_string flt f) = Some r /\ Qabs (r - f) <= (1 # 2) / tens (6 - j).
Proof.
  intros A F H J. assert (T3 := tens_mono j 3 ltac:(lia)). change (tens 3) with 1000 in T3. unfold float_to_string. destruct (Qeq_bool f (round1 flt f)) eqn:E.
  - apply Qeq_bool_eq in E. destruct (read_fixed 1 (decimals 1 f)) as (r & RE & RV). exists r. split; [exact RE|].
    assert (C := decimals_close 1 f F). rewrite <- RV in C. change (tens 1) with 10 in C, RV. unfold round1 in E.
    assert (V : r == Z.of_N (decimals 1 f) # 10) by (rewrite RV; symmetry; apply Qmake_Qdiv). assert (A' := A (Z.of_N (decimals 1 f) # 10)). rewrite <- E, <- V in A'.
    assert (L : (1 # 2) / 100000 <= (1 # 2) / tens (6 - j)) by (clear - J; destruct j as [|[|[|[|j]]]]; [lia|vm_compute; discriminate|vm_compute; discriminate|vm_compute; discriminate|lia]).
    assert (RB : Qabs r <= 1001) by (apply Qabs_Qle_condition in C; change ((1 # 2) / 10) with (1 # 20) in C; apply Qabs_Qle_condition; lra).
    assert (M : Qabs r * eps <= 1001 * eps) by (apply Qmult_le_compat_r; [exact RB|unfold eps; lra]).
    apply Qle_trans with (1001 * eps); [|unfold eps in *; apply Qle_trans with ((1 # 2) / 100000); [vm_compute; discriminate|exact L]].
    setoid_replace (r - f) with (- (f - r)) by ring. rewrite Qabs_opp. lra.
  - destruct (read_short (places6g f) (decimals (places6g f) f)) as (r & RE & RV). exists r. split; [exact RE|]. rewrite RV. eapply Qle_trans; [apply decimals_close; exact F|].
    assert (P := places_ge f j F H ltac:(lia)). assert (T := tens_mono _ _ P). assert (T0 := tens_pos (6 - j)). assert (T1 := tens_pos (places6g f)).
    unfold Qdiv. apply Qmult_le_l; [lra|]. apply Qle_shift_inv_l; [exact T0|]. rewrite Qmult_comm. apply Qle_shift_div_r; [exact T1|]. lra.
Qed.

(** ** Doubles *)

Definition pow2 (z : Z) : Q := if (0 <=? z)%Z then inject_Z (2 ^ z) else 1 # Z.to_pos (2 ^ (- z)).
Lemma inject_pow n : (0 <= n)%Z -> inject_Z (2 ^ n) == 2 ^ n.
Proof.
  intros H. pattern n. apply natlike_ind; [reflexivity| |exact H]. intros k K IH. rewrite Z.pow_succ_r by exact K. rewrite inject_Z_mult, IH.
  unfold Z.succ. rewrite Qpower_plus by lra. cbn. ring.
Qed.
Lemma pow2_spec z : pow2 z == 2 ^ z.
Proof.
  unfold pow2. destruct (Z.leb_spec 0 z) as [P|P]; [apply inject_pow; exact P|]. rewrite Qmake_Qdiv, Z2Pos.id by (apply Z.pow_pos_nonneg; lia).
  rewrite inject_pow by lia. rewrite <- (Z.opp_involutive z) at 2. rewrite (Qpower_opp 2 (- z)). change (inject_Z 1) with 1. unfold Qdiv. ring.
Qed.
Lemma two_pos z : 0 < 2 ^ z.
Proof. apply Qpower_0_lt. lra. Qed.

Lemma floor_exponent n d : (0 < n)%Z -> 2 ^ (Z.log2 n - Z.log2 (Zpos d) - 1) <= n # d.
Proof.
  intros N. assert (A := Z.log2_spec n N). assert (B := Z.log2_spec (Zpos d) ltac:(lia)). set (u := Z.log2 n) in *. set (v := Z.log2 (Zpos d)) in *.
  assert (U0 : (0 <= u)%Z) by apply Z.log2_nonneg. assert (V0 : (0 <= v)%Z) by apply Z.log2_nonneg.
  assert (X : 2 ^ (u - v - 1) == inject_Z (2 ^ u) / inject_Z (2 ^ Z.succ v)).
  { rewrite !inject_pow by lia. replace u with (u - v - 1 + Z.succ v)%Z at 2 by lia. rewrite Qpower_plus by lra. assert (P := two_pos (Z.succ v)). field. lra. }
  rewrite X, Qmake_Qdiv. assert (PV : 0 < inject_Z (2 ^ Z.succ v)) by (change 0 with (inject_Z 0); rewrite <- Zlt_Qlt; lia). assert (PD : 0 < inject_Z (Zpos d)) by (change 0 with (inject_Z 0); rewrite <- Zlt_Qlt; lia).
  apply Qle_shift_div_l; [exact PD|]. setoid_replace (inject_Z (2 ^ u) / inject_Z (2 ^ Z.succ v) * inject_Z (Zpos d)) with (inject_Z (2 ^ u) * inject_Z (Zpos d) / inject_Z (2 ^ Z.succ v)) by (field; lra).
  apply Qle_shift_div_r; [exact PV|]. rewrite <- !inject_Z_mult, <- Zle_Qle. assert (0 < 2 ^ u)%Z by (apply Z.pow_pos_nonneg; lia). nia.
Qed.

Lemma accurate_double : accurate double.
Proof.
  intros x. unfold double. destruct (Qeq_bool x 0) eqn:E.
  - apply Qeq_bool_eq in E. setoid_replace (0 - x) with 0 by (rewrite E; ring). assert (P := Qabs_nonneg x). cbn [Qabs Z.abs]. apply Qmult_le_0_compat; [exact P|unfold eps; lra].
  - apply Qeq_bool_neq in E. set (a := Qabs x). set (l := (Z.log2 (Qnum a) - Z.log2 (Zpos (Qden a)))%Z). fold (pow2 l).
    set (l' := if Qle_bool (pow2 l) a then l else (l - 1)%Z).
    assert (L : 2 ^ l' <= a).
    { unfold l'. destruct (Qle_bool (pow2 l) a) eqn:B; [apply Qle_bool_iff in B; rewrite <- pow2_spec; exact B|].
      assert (N : (0 < Qnum a)%Z).
      { unfold a. destruct x as [n d]. cbn. assert (n <> 0%Z) by (intros ->; apply E; reflexivity). lia. }
      assert (F := floor_exponent (Qnum a) (Qden a) N). fold l in F. destruct a as [an ad]. exact F. }
    set (unit := if (0 <=? 52 - l')%Z then 1 # Z.to_pos (2 ^ (52 - l')) else inject_Z (2 ^ (- (52 - l')))).
    assert (U : unit == 2 ^ (l' - 52)).
    { unfold unit. rewrite <- pow2_spec. unfold pow2. destruct (Z.leb_spec 0 (52 - l')) as [H|H].
      - destruct (Z.leb_spec 0 (l' - 52)) as [H2|H2].
        + replace (52 - l')%Z with 0%Z by lia. replace (l' - 52)%Z with 0%Z by lia. reflexivity.
        + replace (- (l' - 52))%Z with (52 - l')%Z by lia. reflexivity.
      - destruct (Z.leb_spec 0 (l' - 52)) as [H2|H2]; [|lia]. replace (- (52 - l'))%Z with (l' - 52)%Z by lia. reflexivity. }
    assert (U0 : 0 < unit) by (rewrite U; apply two_pos).
    assert (UA : unit * inject_Z (2 ^ 52) <= a).
    { rewrite U, inject_pow, <- Qpower_plus by (lia || lra). replace (l' - 52 + 52)%Z with l' by lia. exact L. }
    rewrite Qred_correct. setoid_replace (inject_Z (round_half_even (x / unit)) * unit - x) with ((inject_Z (round_half_even (x / unit)) - x / unit) * unit) by (field; lra).
    rewrite Qabs_Qmult, (Qabs_pos unit) by lra. assert (R := round_close (x / unit)). apply Qle_trans with ((1 # 2) * unit); [apply Qmult_le_compat_r; lra|].
    change (inject_Z (2 ^ 52)) with 4503599627370496 in UA. unfold eps. lra.
Qed.

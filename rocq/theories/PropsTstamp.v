(** C84, C85, C86: time stamps of MEI. *)
From Coq Require Import QArith Qround Qabs Qreduction Lqa.
From Verif Require Import PyStr PyStrProofs RecipModel TstampModel TstampProofs TstampProofs2.
Local Open Scope Q_scope.

(** ** Vocabulary *)

(** The denominator of a fraction in lowest terms. *)
Definition den (x : Q) : Z := Zpos (Qden (Qred x)).
(** Beats that six digits tell apart: below 10 with denominators up to 130, below 100 with
    denominators up to 13, below 1000 whole numbers only. *)
Definition precise (beat : Q) : Prop :=
  beat < 10 /\ (den beat <= 130)%Z \/ beat < 100 /\ (den beat <= 13)%Z \/ beat < 1000 /\ den beat = 1%Z.
(** The denominator of a time signature; without one, beats are quarter notes. *)
Definition beats_in_whole (m : option positive) : positive := match m with Some d => d | None => 4 end.
Definition same_value (o : option Q) (x : Q) : Prop := exists y, o = Some y /\ y == x.

(** ** Proofs *)

Definition class (j : nat) : positive := match j with 1%nat => 130 | 2%nat => 13 | _ => 1 end.
Definition precise_at (j : nat) (b : Q) : Prop := (1 <= j <= 3)%nat /\ b < tens j /\ (Zpos (qden b) <= Zpos (class j))%Z.
Lemma precise_class b : precise b -> exists j, precise_at j b.
Proof.
  intros [[A B]|[[A B]|[A B]]]; [exists 1%nat|exists 2%nat|exists 3%nat]; (split; [lia|]); (split; [exact A|]); unfold den in B; fold (qden b) in B; cbn [class]; lia.
Qed.
Lemma qden_tens j : qden (tens j) = 1%positive.
Proof. assert (X := qden_le (tens j) (Z.of_N (ten_to j)) 1 (Qeq_refl _)). lia. Qed.

(** A precise beat keeps away from the next power of ten. *)
Lemma below_tens b j : precise_at j b -> b <= tens j - (1 # 130).
Proof.
  intros (J & B & D). assert (N : ~ b == tens j) by lra. apply apart in N. rewrite qden_tens, Pos.mul_1_r in N.
  assert (X : 1 # 130 <= 1 # qden b) by (unfold Qle; cbn [Qnum Qden]; unfold class in D; destruct j as [|[|[|j]]]; lia).
  assert (Y : Qabs (b - tens j) == tens j - b) by (rewrite Qabs_neg by lra; ring). lra.
Qed.

Lemma read_back flt x m j : accurate flt -> 0 <= x -> precise_at j (beat_of x m) ->
  exists r, read_decimal (float_to_string flt (offset_to_beat flt x m)) = Some r /\ Qabs (r - beat_of x m) <= (1 # 2) / tens (6 - j) + 8000 * eps.
Proof.
  intros A X P. assert (B0 : 1 <= beat_of x m).
  { unfold beat_of. assert (0 <= x / 4 * inject_Z (Zpos (meter_denominator m))); [|lra]. apply Qmult_le_0_compat; [apply Qle_shift_div_l; lra|]. change 0 with (inject_Z 0). rewrite <- Zle_Qle. lia. }
  assert (C := beat_close flt x m A X). assert (BT := below_tens _ _ P). destruct P as (J & B & D). assert (T3 := tens_mono j 3 ltac:(lia)). change (tens 3) with 1000 in T3.
  assert (C2 : beat_of x m * (8 * eps) <= 1000 * (8 * eps)) by (apply Qmult_le_compat_r; [lra|unfold eps; lra]).
  assert (C3 : Qabs (offset_to_beat flt x m - beat_of x m) <= 8000 * eps) by (unfold eps in *; lra). apply Qabs_Qle_condition in C3.
  set (f := offset_to_beat flt x m) in *. set (b := beat_of x m) in *.
  assert (F0 : 0 <= f) by (unfold eps in C3; lra). assert (FT : f < tens j) by (unfold eps in C3; lra).
  destruct (written_close flt f j A F0 FT J) as (r & E & R). exists r. split; [exact E|]. apply Qabs_Qle_condition in R. apply Qabs_Qle_condition. lra.
Qed.

Lemma class_bound j b : precise_at j b -> (1 # 2) / tens (6 - j) + 14000 * eps < 1 # (2 * Z.to_pos DENOM_LIMIT * qden b).
Proof.
  intros (J & _ & D). apply Qlt_le_trans with (1 # (2 * Z.to_pos DENOM_LIMIT * class j)).
  - destruct j as [|[|[|[|j]]]]; [lia|vm_compute; reflexivity|vm_compute; reflexivity|vm_compute; reflexivity|lia].
  - unfold Qle. cbn [Qnum Qden]. nia.
Qed.

Lemma limit_reads b j u : precise_at j b -> Qabs (u - b) <= (1 # 2) / tens (6 - j) + 14000 * eps -> same_value (limit_denominator DENOM_LIMIT u) b.
Proof.
  intros P U. apply recovers; [unfold DENOM_LIMIT; lia|destruct P as (J & _ & D); unfold DENOM_LIMIT, class in *; destruct j as [|[|[|j]]]; lia|].
  setoid_replace (b - u) with (- (u - b)) by ring. rewrite Qabs_opp. eapply Qle_lt_trans; [exact U|]. apply class_bound. exact P.
Qed.

Lemma after_float flt r b j : accurate flt -> precise_at j b -> 0 <= b -> Qabs (r - b) <= (1 # 2) / tens (6 - j) + 8000 * eps -> Qabs (flt r - b) <= (1 # 2) / tens (6 - j) + 14000 * eps.
Proof.
  intros A P B0 R. destruct P as (J & B & _). assert (T3 := tens_mono j 3 ltac:(lia)). change (tens 3) with 1000 in T3.
  assert (C1 : (1 # 2) / tens (6 - j) + 8000 * eps <= 1) by (clear - J; destruct j as [|[|[|[|j]]]]; [lia|vm_compute; discriminate|vm_compute; discriminate|vm_compute; discriminate|lia]).
  assert (V : Qabs b <= 5000) by (apply Qabs_Qle_condition; lra). assert (X := abs_step flt r b _ A R V C1). unfold eps in *. lra.
Qed.

Lemma opFrac_reads u v : (Zpos (qden v) <= 16640)%Z -> Qabs (u - v) <= 50000 * eps -> same_value (opFrac u) v.
Proof.
  intros D U. apply recovers; [lia|lia|]. setoid_replace (v - u) with (- (u - v)) by ring. rewrite Qabs_opp. eapply Qle_lt_trans; [exact U|].
  apply Qlt_le_trans with (1 # (2 * Z.to_pos 65535 * 16640)); [vm_compute; reflexivity|]. unfold Qle. cbn [Qnum Qden]. lia.
Qed.

Lemma back_to_offset flt y x m : accurate flt -> 0 <= x -> y == beat_of x m -> beat_of x m <= 1000 -> (den (beat_of x m) <= 130)%Z -> (meter_denominator m <= 128)%positive ->
  same_value (beat_to_offset flt y m) x.
Proof.
  intros A X E B D DM. unfold den in D. fold (qden (beat_of x m)) in D. unfold beat_to_offset. set (b := beat_of x m) in *. set (d := meter_denominator m) in *.
  assert (DQ : 1 <= inject_Z (Zpos d)) by (change 1 with (inject_Z 1); rewrite <- Zle_Qle; lia). set (dq := inject_Z (Zpos d)) in *.
  assert (VB : b == x / 4 * dq + 1) by reflexivity. assert (X4 : 0 <= x / 4) by (apply Qle_shift_div_l; lra).
  assert (X4D : x / 4 * 1 <= x / 4 * dq) by (rewrite (Qmult_comm _ 1), (Qmult_comm _ dq); apply Qmult_le_compat_r; assumption).
  assert (XX : x == 4 * (x / 4)) by field.
  (* first step *)
  assert (S1 : Qabs (flt y - b) <= 0 + 5001 * eps).
  { apply abs_step; [exact A|..|lra]. - setoid_replace (y - b) with 0 by (rewrite E; ring). cbn. lra. - apply Qabs_Qle_condition. lra. }
  assert (S2 : Qabs (flt (flt y - 1) - (b - 1)) <= 5001 * eps + 5001 * eps).
  { apply abs_step; [exact A|..]. - setoid_replace (flt y - 1 - (b - 1)) with (flt y - b) by ring. rewrite Qplus_0_l in S1. exact S1. - apply Qabs_Qle_condition. lra. - unfold eps. lra. }
  assert (DB : b - 1 == (qnum b - Zpos (qden b))%Z # qden b).
  { rewrite (qden_red b) at 1. unfold Qeq, Qminus, Qplus, Qopp. cbn [Qnum Qden]. rewrite Pos.mul_1_r. ring. }
  destruct (opFrac_reads (flt (flt y - 1)) (b - 1)) as (y1 & -> & E1); [assert (Q := qden_le _ _ _ DB); lia|unfold eps in *; lra|]. cbn [bind].
  (* second step *)
  assert (S3 : Qabs (flt y1 - (b - 1)) <= 0 + 5001 * eps).
  { apply abs_step; [exact A|..|lra]. - setoid_replace (y1 - (b - 1)) with 0 by (rewrite E1; ring). cbn. lra. - apply Qabs_Qle_condition. lra. }
  assert (V2 : (b - 1) / dq == x / 4) by (rewrite VB; field; lra).
  assert (S4 : Qabs (flt (flt y1 / dq) - x / 4) <= 5001 * eps + 5001 * eps).
  { apply abs_step; [exact A|..].
    - setoid_replace (flt y1 / dq - x / 4) with ((flt y1 - (b - 1)) / dq) by (rewrite <- V2; field; lra). unfold Qdiv. rewrite Qabs_Qmult, (Qabs_pos (/ dq)) by (apply Qinv_le_0_compat; lra).
      apply Qle_trans with (5001 * eps * / dq); [apply Qmult_le_compat_r; [lra|apply Qinv_le_0_compat; lra]|]. apply Qle_shift_div_r; [lra|]. 
      setoid_replace (5001 * eps) with (5001 * eps * 1) at 1 by ring. rewrite (Qmult_comm (5001 * eps) 1), (Qmult_comm (5001 * eps) dq). apply Qmult_le_compat_r; [exact DQ|unfold eps; lra].
    - apply Qabs_Qle_condition. lra.
    - unfold eps. lra. }
  assert (DX : x / 4 == (qnum b - Zpos (qden b))%Z # (qden b * d)).
  { rewrite <- V2, DB. unfold dq. rewrite (Qmake_Qdiv _ (qden b)), (Qmake_Qdiv _ (qden b * d)). rewrite Pos2Z.inj_mul, inject_Z_mult. field. split; [unfold dq in DQ; lra|]. change 0 with (inject_Z 0). rewrite inject_Z_injective. lia. }
  destruct (opFrac_reads (flt (flt y1 / dq)) (x / 4)) as (y2 & -> & E2); [assert (Q := qden_le _ _ _ DX); nia|unfold eps in *; lra|]. cbn [bind].
  (* third step *)
  assert (S5 : Qabs (flt y2 - x / 4) <= 0 + 5001 * eps).
  { apply abs_step; [exact A|..|lra]. - setoid_replace (y2 - x / 4) with 0 by (rewrite E2; ring). cbn. lra. - apply Qabs_Qle_condition. lra. }
  assert (S6 : Qabs (flt (flt y2 * 4) - x) <= 20004 * eps + 5001 * eps).
  { apply abs_step; [exact A|..].
    - setoid_replace (flt y2 * 4 - x) with ((flt y2 - x / 4) * 4) by field. rewrite Qabs_Qmult. change (Qabs 4) with 4. lra.
    - apply Qabs_Qle_condition. lra.
    - unfold eps. lra. }
  assert (DX4 : x == (4 * (qnum b - Zpos (qden b)))%Z # (qden b * d)).
  { rewrite XX, DX. unfold Qeq, Qmult. cbn [Qnum Qden]. rewrite ?Pos.mul_1_l, ?Pos2Z.inj_mul. ring. }
  apply opFrac_reads; [assert (Q := qden_le _ _ _ DX4); nia|unfold eps in *; lra].
Qed.

(** *** Time signatures *)

(** Time signatures in order of their offsets. *)
Definition in_order (meters : list (Q * positive)) : Prop := forall a p d b q e c, meters = a ++ (p, d) :: b ++ (q, e) :: c -> p < q.
(** The time signature in force: the last one that does not begin later. *)
Definition in_force (meters : list (Q * positive)) (o : Q) (m : option positive) : Prop :=
  match m with
  | None => forall p d, In (p, d) meters -> o < p
  | Some d => exists a p b, meters = a ++ (p, d) :: b /\ p <= o /\ forall q e, In (q, e) b -> o < q
  end.

Lemma active_none meters o : (forall p d, In (p, d) meters -> o < p) -> active_meter meters o = None.
Proof.
  destruct meters as [|[p d] r]; [reflexivity|]. intros H. cbn [active_meter]. specialize (H p d (or_introl eq_refl)). destruct (Qle_bool p o) eqn:E; [apply Qle_bool_iff in E; lra|reflexivity].
Qed.
Lemma active_in_force meters o m : in_order meters -> in_force meters o m -> active_meter meters o = m.
Proof.
  intros S. destruct m as [d|]; [|apply active_none]. intros (a & p & b & -> & P & B). induction a as [|[p' d'] a IH]; cbn [app active_meter].
  - apply Qle_bool_iff in P. rewrite P. rewrite (active_none b o B). reflexivity.
  - assert (L : p' <= o) by (assert (X := S [] p' d' a p d b eq_refl); lra). apply Qle_bool_iff in L. rewrite L. rewrite IH; [reflexivity|].
    intros a0 p0 d0 b0 q e c E. apply (S ((p', d') :: a0) p0 d0 b0 q e c). cbn [app]. f_equal. exact E.
Qed.

(** ** C84: a time stamp is read back as the same offset *)

Theorem C84_partial flt in_score x meters m : accurate flt -> in_order meters -> in_force meters in_score m -> (beats_in_whole m <= 128)%positive ->
  0 <= x -> precise (x / 4 * inject_Z (Zpos (beats_in_whole m)) + 1) ->
  same_value (tstampToOffset flt (makeTstamp flt in_score x meters) m) x.
Proof.
  intros A S F D X P. change (beats_in_whole m) with (meter_denominator m) in *. fold (beat_of x m) in P. unfold makeTstamp, tstampToOffset, tstampStrToOffsetQL. rewrite (active_in_force _ _ _ S F).
  destruct (precise_class _ P) as (j & PJ). destruct (read_back flt x m j A X PJ) as (r & -> & R). cbn [bind].
  assert (B0 : 0 <= beat_of x m).
  { unfold beat_of. assert (0 <= x / 4 * inject_Z (Zpos (meter_denominator m))); [|lra]. apply Qmult_le_0_compat; [apply Qle_shift_div_l; lra|]. change 0 with (inject_Z 0). rewrite <- Zle_Qle. lia. }
  destruct (limit_reads _ _ _ PJ (after_float flt r _ j A PJ B0 R)) as (y & -> & E).
  apply back_to_offset; [exact A|exact X|exact E| | |exact D]; destruct P as [[? ?]|[[? ?]|[? ?]]]; (lra || lia).
Qed.
Print Assumptions C84_partial.

(** The doubles of the processor are such numbers; a triplet position in 3/4 and one in 6/8. *)
Example C84_nonvacuous : accurate double /\
  map (fun x => (makeTstamp double 0 x [(0, 4%positive)], tstampToOffset double (makeTstamp double 0 x [(0, 4%positive)]) (Some 4%positive))) [0; 1 # 3; 8 # 3] =
    [(S_ "1.0", Some 0); (S_ "1.33333", Some (1 # 3)); (S_ "3.66667", Some (8 # 3))] /\
  tstampToOffset double (makeTstamp double 0 (29 # 12) [(0, 8%positive)]) (Some 8%positive) = Some (29 # 12) /\ precise (8 # 3) /\ precise ((29 # 12) / 4 * 8 + 1).
Proof.
  split; [exact accurate_double|]. split; [vm_compute; reflexivity|]. split; [vm_compute; reflexivity|]. split; left; (split; [vm_compute; reflexivity|vm_compute; discriminate]).
Qed.

(** Six digits are not enough beyond: in 12/8, a forty-eighth of a quarter note after the tenth
    eighth note is not where it was. *)
Theorem C84_refuted : exists x y, accurate double /\ 0 <= x /\ x < 6 /\ (den x <= 48)%Z /\
  tstampToOffset double (makeTstamp double 0 x [(0, 8%positive)]) (Some 8%positive) = Some y /\ ~ y == x.
Proof.
  exists (217 # 48), (6935 # 1534). split; [exact accurate_double|]. split; [vm_compute; discriminate|]. split; [vm_compute; reflexivity|]. split; [vm_compute; discriminate|].
  split; [vm_compute; reflexivity|]. vm_compute. discriminate.
Qed.
Print Assumptions C84_refuted.

(** ** C85: a time stamp is read as the closest fraction of small denominator *)

(** Decimal numerals and their values. *)
Inductive numeral : str -> Q -> Prop :=
| Whole a : a <> [] -> forallb is_digit a = true -> numeral a (inject_Z (Z.of_N (parse_N a)))
| Point a b : a <> [] -> forallb is_digit a = true -> forallb is_digit b = true ->
    numeral (a ++ "."%char :: b) (inject_Z (Z.of_N (parse_N (a ++ b))) / inject_Z (10 ^ Z.of_nat (length b))).

Theorem C85_closest flt s x : numeral s x -> exists x' y, x' == x /\ tstampStrToOffsetQL flt s = Some y /\ (den y <= 768)%Z /\
  (forall z, (den z <= 768)%Z -> Qabs (y - flt x') <= Qabs (z - flt x')).
Proof.
  intros H. assert (R : exists x', read_decimal s = Some x' /\ x' == x).
  { destruct H as [a N D|a b N D1 D2].
    - exists (inject_Z (Z.of_N (parse_N a))). split; [apply read_whole; assumption|reflexivity].
    - destruct (read_point a b D1 D2 N) as (q & E & V). exists q. split; [exact E|]. rewrite V. unfold tens, ten_to. rewrite N2Z.inj_pow, nat_N_Z. reflexivity. }
  destruct R as (x' & R & EX). unfold tstampStrToOffsetQL. rewrite R. cbn [bind]. destruct (limit_best DENOM_LIMIT (flt x') ltac:(unfold DENOM_LIMIT; lia)) as (y & E & D & B).
  exists x', y. split; [exact EX|]. split; [exact E|]. split; [exact D|exact B].
Qed.
Print Assumptions C85_closest.
(** A fraction of small denominator that is nearer than any other can be is read itself. *)
Theorem C85_recovers flt s x z : accurate flt -> numeral s x -> x <= 1000 -> (den z <= 768)%Z ->
  Qabs (x - z) + 5001 * eps < 1 / (2 * 768 * inject_Z (den z)) -> same_value (tstampStrToOffsetQL flt s) z.
Proof.
  intros A N X D C. destruct (C85_closest flt s x N) as (x' & y & EX & E & DY & B). exists y. split; [exact E|]. specialize (B z D).
  destruct (Qeq_dec y z) as [|NE]; [assumption|exfalso]. apply apart in NE.
  assert (X0 : 0 <= x).
  { destruct N; [change 0 with (inject_Z 0); rewrite <- Zle_Qle; lia|]. apply Qle_shift_div_l; [change 0 with (inject_Z 0); rewrite <- Zlt_Qlt; lia|]. rewrite Qmult_0_l. change 0 with (inject_Z 0). rewrite <- Zle_Qle. lia. }
  assert (F : Qabs (flt x' - x) <= 0 + 5001 * eps) by (apply abs_step; [exact A|setoid_replace (x' - x) with 0 by (rewrite EX; ring); cbn; lra|apply Qabs_Qle_condition; lra|lra]).
  assert (T1 : Qabs (z - flt x') <= Qabs (x - z) + 5001 * eps).
  { setoid_replace (z - flt x') with (- (x - z) + - (flt x' - x)) by ring. eapply Qle_trans; [apply Qabs_triangle|]. rewrite !Qabs_opp. lra. }
  assert (T2 : Qabs (y - z) <= Qabs (y - flt x') + Qabs (z - flt x')).
  { setoid_replace (y - z) with ((y - flt x') + - (z - flt x')) by ring. eapply Qle_trans; [apply Qabs_triangle|]. rewrite Qabs_opp. apply Qle_refl. }
  unfold den in *. fold (qden z) in *. fold (qden y) in *.
  assert (U : 1 # 768 * qden z <= 1 # qden y * qden z) by (unfold Qle; cbn [Qnum Qden]; nia).
  assert (V : 1 / (2 * 768 * inject_Z (Zpos (qden z))) + 1 / (2 * 768 * inject_Z (Zpos (qden z))) == 1 # 768 * qden z).
  { rewrite (Qmake_Qdiv 1 (768 * qden z)), Pos2Z.inj_mul, inject_Z_mult. change (inject_Z 1) with 1. change (inject_Z 768) with 768. field. change 0 with (inject_Z 0). rewrite inject_Z_injective. lia. }
  lra.
Qed.
Print Assumptions C85_recovers.
Example C85_nonvacuous : numeral (S_ "1.66666") (inject_Z (Z.of_N (parse_N (S_ "1" ++ S_ "66666"))) / inject_Z (10 ^ 5)) /\ tstampStrToOffsetQL double (S_ "1.66666") = Some (5 # 3) /\ tstampStrToOffsetQL double (S_ "2.") = Some (2 # 1) /\
  tstampStrToOffsetQL double (S_ "1.0013") = Some (769 # 768).
Proof. split; [exact (Point (S_ "1") (S_ "66666") ltac:(discriminate) eq_refl eq_refl)|]. repeat split; vm_compute; reflexivity. Qed.

(** ** C86: the end of a spanner is read back at the same place *)

Lemma written_form flt f : exists w t, float_to_string flt f = show_N w ++ t /\ (t = [] \/ exists ds, t = "."%char :: ds /\ forallb is_digit ds = true).
Proof.
  unfold float_to_string. destruct (Qeq_bool _ _).
  - unfold fixed_point. eexists _, _. split; [reflexivity|]. right. eexists. split; [reflexivity|apply last_are_digits].
  - unfold short_point. destruct (strip_spec (last_digits (places6g f) (decimals (places6g f) f))) as (j & E). assert (D := last_are_digits (places6g f) (decimals (places6g f) f)). rewrite E, forallb_app in D. apply andb_true_iff in D. destruct D as [D _].
    destruct (strip_zeros _) as [|c t].
    + exists (decimals (places6g f) f / ten_to (places6g f))%N, []. split; [symmetry; apply app_nil_r|left; reflexivity].
    + eexists _, _. split; [reflexivity|]. right. eexists. split; [reflexivity|exact D].
Qed.

Lemma digit_not_blank c : is_digit c = true -> is_blank c = false.
Proof. destruct c as [[] [] [] [] [] [] [] []]; vm_compute; congruence. Qed.

Lemma match_written n w t : (t = [] \/ exists ds, t = "."%char :: ds /\ forallb is_digit ds = true) ->
  match_tstamp2 (show_N n ++ S_ "m+" ++ show_N w ++ t) = Some (Some (show_N n), show_N w, t).
Proof.
  intros T. unfold match_tstamp2. 
  assert (MS : match_skip (show_N n ++ S_ "m+" ++ show_N w ++ t) = Some (show_N n, show_N w ++ t)).
  { unfold match_skip. rewrite span_app_all; [|apply show_N_digits|reflexivity]. destruct (show_N_cons n) as (c & s & -> & _). change (S_ "m+" ++ show_N w ++ t) with ("m"%char :: "+"%char :: show_N w ++ t). cbv beta iota.
    change (Ascii.eqb "m" "m") with true. cbv iota. change (span is_blank ("+"%char :: show_N w ++ t)) with (@nil ascii, "+"%char :: show_N w ++ t). cbn [snd]. change (Ascii.eqb "+" "+") with true. cbv iota.
    destruct (show_N_cons w) as (c1 & s1 & -> & D1). cbn [app span]. rewrite (digit_not_blank _ D1). reflexivity. }
  rewrite MS. assert (MB : match_beat (show_N w ++ t) = Some (show_N w, t)).
  { unfold match_beat. rewrite span_app_all; [|apply show_N_digits|destruct T as [->|(ds & -> & _)]; [exact I|reflexivity]].
    destruct (show_N_cons w) as (c1 & s1 & -> & D1). f_equal. f_equal. destruct T as [->|(ds & -> & DD)]; [reflexivity|]. change (Ascii.eqb "." ".") with true. cbv iota. rewrite (span_all _ _ DD). reflexivity. }
  rewrite MB. reflexivity.
Qed.

Lemma whole_limit z y : limit_denominator DENOM_LIMIT (inject_Z z) = Some y -> y == inject_Z z.
Proof.
  unfold limit_denominator, preFracLimitDenominator. assert (D := qden_le (inject_Z z) z 1 (Qeq_refl _)). assert (L : (Zpos (qden (inject_Z z)) <=? DENOM_LIMIT)%Z = true) by (unfold DENOM_LIMIT; lia).
  rewrite L. intros E. injection E as <-. symmetry. apply qden_red.
Qed.

Lemma read_end flt n x m : accurate flt -> 0 <= x -> precise (beat_of x m) -> (meter_denominator m <= 128)%positive ->
  exists y, tstamp2ToMeasSkipAndOffset flt (show_N n ++ S_ "m+" ++ float_to_string flt (offset_to_beat flt x m)) m = Some (n, y) /\ y == x.
Proof.
  intros A X P DM. destruct (precise_class _ P) as (j & PJ). destruct (read_back flt x m j A X PJ) as (r & RE & R).
  assert (B0 : 0 <= beat_of x m).
  { unfold beat_of. assert (0 <= x / 4 * inject_Z (Zpos (meter_denominator m))); [|lra]. apply Qmult_le_0_compat; [apply Qle_shift_div_l; lra|]. change 0 with (inject_Z 0). rewrite <- Zle_Qle. lia. }
  assert (FIN : forall y, y == beat_of x m -> same_value (beat_to_offset flt y m) x) by (intros y E; apply back_to_offset; [exact A|exact X|exact E| | |exact DM]; destruct P as [[? ?]|[[? ?]|[? ?]]]; (lra || lia)).
  destruct (written_form flt (offset_to_beat flt x m)) as (w & t & E & T). unfold tstamp2ToMeasSkipAndOffset. rewrite E in *. rewrite (match_written n w t T). rewrite !parse_show_N.
  destruct T as [->|(ds & -> & DD)].
  - rewrite app_nil_r in RE. rewrite (read_whole _ (show_N_digits w) (show_nonempty w)), parse_show_N in RE. injection RE as <-.
    assert (R' : Qabs (inject_Z (Z.of_N w) - beat_of x m) <= (1 # 2) / tens (6 - j) + 14000 * eps) by (unfold eps in *; lra).
    destruct (limit_reads _ _ _ PJ R') as (y & LY & EY). apply whole_limit in LY. destruct (FIN (inject_Z (Z.of_N w))) as (o & -> & EO); [rewrite <- LY; exact EY|].
    exists o. split; [reflexivity|exact EO].
  - unfold tstampStrToOffsetQL. rewrite RE. cbn [bind]. destruct (limit_reads _ _ _ PJ (after_float flt r _ j A PJ B0 R)) as (y & -> & EY). destruct (FIN y EY) as (o & -> & EO). exists o. split; [reflexivity|exact EO].
Qed.

Lemma find_ok ms end_ : (exists o l, In (o, l) ms /\ o <= end_ /\ end_ <= o + l) ->
  exists n o l, nth_error ms n = Some (o, l) /\ find_measure ms end_ = (n, end_ - o) /\ o <= end_ /\ end_ <= o + l.
Proof.
  induction ms as [|[o l] ms IH]; intros (o0 & l0 & I & A & B); [destruct I|]. cbn [find_measure]. destruct (Qle_bool 0 (end_ - o) && Qle_bool (end_ - o) l) eqn:E.
  - apply andb_true_iff in E. destruct E as [E1 E2]. apply Qle_bool_iff in E1, E2. exists 0%nat, o, l. split; [reflexivity|]. split; [reflexivity|]. lra.
  - destruct I as [I|I].
    + injection I as -> ->. exfalso. assert (X : Qle_bool 0 (end_ - o0) && Qle_bool (end_ - o0) l0 = true) by (apply andb_true_iff; split; apply Qle_bool_iff; lra). congruence.
    + destruct IH as (n & o1 & l1 & N & F & C & D); [exists o0, l0; tauto|]. rewrite F. exists (S n), o1, l1. split; [exact N|]. split; [reflexivity|tauto].
Qed.

(** The measures are given from the one in which the spanner begins; the importer reads the end
    with the time signature in force there. *)
Theorem C86_partial flt end_ ms meters m : accurate flt -> in_order meters -> in_force meters end_ m -> (beats_in_whole m <= 128)%positive ->
  (exists o l, In (o, l) ms /\ o <= end_ /\ end_ <= o + l) ->
  (forall o l, In (o, l) ms -> o <= end_ -> end_ <= o + l -> precise ((end_ - o) / 4 * inject_Z (Zpos (beats_in_whole m)) + 1)) ->
  exists r, tstamp2ToMeasSkipAndOffset flt (makeTstamp2 flt end_ ms meters) m = Some r /\ same_value (end_position ms r) end_.
Proof.
  intros A S F D E P. change (beats_in_whole m) with (meter_denominator m) in *. destruct (find_ok ms end_ E) as (n & o & l & N & FM & B1 & B2). unfold makeTstamp2. rewrite FM, (active_in_force _ _ _ S F).
  assert (PO := P o l (nth_error_In _ _ N) B1 B2). fold (beat_of (end_ - o) m) in PO.
  destruct (read_end flt (N.of_nat n) (end_ - o) m A ltac:(lra) PO D) as (y & -> & EY). eexists. split; [reflexivity|]. unfold end_position. cbn [fst snd]. rewrite Nnat.Nat2N.id, N.
  eexists. split; [reflexivity|]. rewrite EY. ring.
Qed.
Print Assumptions C86_partial.
Example C86_nonvacuous : makeTstamp2 double (31 # 3) [(0, 4); (4, 4); (8, 3)] [(0, 4%positive)] = S_ "2m+3.33333" /\
  tstamp2ToMeasSkipAndOffset double (S_ "2m+3.33333") (Some 4%positive) = Some (2%N, 7 # 3) /\ makeTstamp2 double 8 [(0, 4); (4, 4); (8, 3)] [(0, 4%positive)] = S_ "1m+5.0".
Proof. repeat split; vm_compute; reflexivity. Qed.

(** If the time signature changes on the way, the end is read at another place; and an end after
    the last measure is lost. *)
Theorem C86_refuted :
  (exists end_ ms meters m r p, accurate double /\ in_order meters /\ in_force meters 0 m /\
    tstamp2ToMeasSkipAndOffset double (makeTstamp2 double end_ ms meters) m = Some r /\ end_position ms r = Some p /\ ~ p == end_) /\
  (exists end_ ms r, accurate double /\ tstamp2ToMeasSkipAndOffset double (makeTstamp2 double end_ ms []) None = Some r /\ end_position ms r = None).
Proof.
  split.
  - exists (5 # 1), [(0, 4); (4, 3)], [(0, 4%positive); (4, 8%positive)], (Some 4%positive), (1%N, 2 # 1), (4 + (2 # 1)). split; [exact accurate_double|]. split; [|split; [|split; [|split]]].
    + intros a p d b q e c E. destruct a as [|x a]; [|destruct a as [|x' a]].
      * injection E as <- <- E. destruct b as [|y b]; [injection E as <- <- _; lra|]. destruct b; discriminate.
      * injection E as _ _ _ E. destruct b; discriminate.
      * destruct a; discriminate.
    + exists [], 0, [(4, 8%positive)]. split; [reflexivity|]. split; [lra|]. intros q e [E|[]]. injection E as <- _. lra.
    + vm_compute. reflexivity.
    + vm_compute. reflexivity.
    + vm_compute. discriminate.
  - exists 5, [(0, 4)], (1%N, 0). split; [exact accurate_double|]. split; vm_compute; reflexivity.
Qed.
Print Assumptions C86_refuted.

(** Proofs about [kernRecipFromM21Duration]. *)
From Verif Require Import PyStr PyStrProofs RecipModel RecipProofs Pow2Proofs.
From Coq Require Import QArith Qreduction Qfield.
From Coq Require Znumtheory Zpow_facts.
Local Close Scope Q_scope.
Local Opaque show_N.

(** A text [base] without dots that, with [j] dots appended, reads as
    [w * dot_factor j] whole notes, for every [j]. *)
Definition dot_base (base : str) (w : Q) : Prop :=
  char_in "." base = false /\
  forall j, exists x, recip_eval (base ++ rep "." j) 4 = Rhythm x /\ (x == w * dot_factor j * 4)%Q.

Lemma dot_base_plain p : dot_base (show_pos p) (1 # p).
Proof.
  split; [apply show_no_char; reflexivity|].
  intro j. eexists; split; [apply recip_eval_plain|reflexivity].
Qed.

Lemma dot_base_pct p n : dot_base (show_pos p ++ S_ "%" ++ show_N n) (Z.of_N n # p).
Proof.
  split; [unfold show_pos; nochar|].
  intro j. eexists; split; [rewrite <- !app_assoc; apply recip_eval_pct|reflexivity].
Qed.

Lemma dot_base_zeros z : dot_base (rep "0" (S z)) (inject_Z (2 ^ Z.of_nat (S z))).
Proof.
  split; [nochar|].
  intro j. eexists; split; [apply recip_eval_zeros|reflexivity].
Qed.

Lemma dot_base_eq b w w' : (w == w')%Q -> dot_base b w -> dot_base b w'.
Proof.
  intros E [H1 H2]. split; [exact H1|]. intro j. destruct (H2 j) as (x & Hx & Hq).
  exists x. split; [exact Hx|]. rewrite Hq, E. reflexivity.
Qed.

Lemma dot_base_reads b w k d :
  dot_base b w -> (w * dot_factor k * 4 == d)%Q -> reads_as (b ++ rep "." k) d.
Proof.
  intros [_ H] E. destruct (H k) as (x & Hx & Hq). exists x. split; [exact Hx|].
  rewrite Hq. exact E.
Qed.

Lemma split_base b k : char_in "." b = false -> hd [] (split_char "." (b ++ rep "." k)) = b.
Proof.
  intro H. destruct k as [|k].
  - cbn [rep repeat]. rewrite app_nil_r, split_char_no_sep by exact H. reflexivity.
  - cbn [rep repeat]. rewrite split_char_app by exact H. reflexivity.
Qed.

Lemma count_base b k : char_in "." b = false -> count_char "." (b ++ rep "." k) = k.
Proof.
  intro H. rewrite count_char_app, count_rep_same, count_char_not_in by exact H. reflexivity.
Qed.

(** ** The 'n%m' rewriting *)

(** Inside a tuplet, or with dots, only exact powers of two are rewritten. *)
Lemma rewrite_pct_base inT p n k :
  (inT = true \/ k <> 0) ->
  exists b, rewrite_pct inT (Npos p) n (rep "." k)
              (show_pos p ++ S_ "%" ++ show_N n ++ rep "." k) = b ++ rep "." k
            /\ dot_base b (Z.of_N n # p).
Proof.
  intro HT. unfold rewrite_pct.
  assert (Z0 : forall z m, dot_base (rep "0" (S z)) (inject_Z (2 ^ Z.of_nat (S z))) ->
     (N.pos p =? 1)%N && (n =? m)%N = true -> Z.of_N m = (2 ^ Z.of_nat (S z))%Z ->
     dot_base (rep "0" (S z)) (Z.of_N n # p)).
  { intros z m D E Hm. apply andb_true_iff in E as [E1 E2].
    apply N.eqb_eq in E1. apply N.eqb_eq in E2. inversion E1; subst.
    eapply dot_base_eq; [|exact D]. rewrite Hm. reflexivity. }
  destruct (rep "." k) as [|c0 dots] eqn:Ek.
  - assert (k = 0) by (destruct k; [reflexivity|discriminate]). subst k.
    destruct HT as [->|HT]; [|congruence]. cbn [negb]. rewrite !andb_false_r.
    destruct (_ && (n =? 2)%N) eqn:E2;
      [exists (rep "0" 1); split; [reflexivity|eapply Z0; [apply dot_base_zeros|exact E2|reflexivity]]|].
    destruct (_ && (n =? 4)%N) eqn:E4;
      [exists (rep "0" 2); split; [reflexivity|eapply Z0; [apply dot_base_zeros|exact E4|reflexivity]]|].
    destruct (_ && (n =? 8)%N) eqn:E8;
      [exists (rep "0" 3); split; [reflexivity|eapply Z0; [apply dot_base_zeros|exact E8|reflexivity]]|].
    destruct (_ && (n =? 16)%N) eqn:E16;
      [exists (rep "0" 4); split; [reflexivity|eapply Z0; [apply dot_base_zeros|exact E16|reflexivity]]|].
    eexists; split; [|apply dot_base_pct]. rewrite <- !app_assoc. reflexivity.
  - destruct (_ && (n =? 2)%N) eqn:E2;
      [exists (rep "0" 1); split; [reflexivity|eapply Z0; [apply dot_base_zeros|exact E2|reflexivity]]|].
    destruct (_ && (n =? 4)%N) eqn:E4;
      [exists (rep "0" 2); split; [reflexivity|eapply Z0; [apply dot_base_zeros|exact E4|reflexivity]]|].
    destruct (_ && (n =? 8)%N) eqn:E8;
      [exists (rep "0" 3); split; [reflexivity|eapply Z0; [apply dot_base_zeros|exact E8|reflexivity]]|].
    destruct (_ && (n =? 16)%N) eqn:E16;
      [exists (rep "0" 4); split; [reflexivity|eapply Z0; [apply dot_base_zeros|exact E16|reflexivity]]|].
    eexists; split; [|apply dot_base_pct]. rewrite <- !app_assoc. reflexivity.
Qed.

(** Outside tuplets, without dots. *)
Lemma rewrite_pct_reads p n d :
  ((Z.of_N n # p) * 4 == d)%Q ->
  reads_as (rewrite_pct false (Npos p) n [] (show_pos p ++ S_ "%" ++ show_N n ++ [])) d.
Proof.
  intro H. unfold rewrite_pct.
  assert (Z0 : forall z k m, (N.pos p =? 1)%N && (n =? m)%N = true ->
     (inject_Z (Z.of_N m) == inject_Z (2 ^ Z.of_nat (S z)) * dot_factor k)%Q ->
     reads_as (rep "0" (S z) ++ rep "." k) d).
  { intros z k m E Hm. apply andb_true_iff in E as [E1 E2].
    apply N.eqb_eq in E1. apply N.eqb_eq in E2. inversion E1; subst.
    apply reads_zeros. rewrite <- H, <- Hm. reflexivity. }
  cbn [negb]. rewrite !andb_true_r.
  destruct (_ && (n =? 2)%N) eqn:E2; [apply (Z0 0 0 _ E2); reflexivity|].
  destruct (_ && (n =? 4)%N) eqn:E4; [apply (Z0 1 0 _ E4); reflexivity|].
  destruct (_ && (n =? 8)%N) eqn:E8; [apply (Z0 2 0 _ E8); reflexivity|].
  destruct (_ && (n =? 16)%N) eqn:E16; [apply (Z0 3 0 _ E16); reflexivity|].
  destruct (_ && (n =? 3)%N) eqn:E3; [apply (Z0 0 1 _ E3); reflexivity|].
  destruct (_ && (n =? 6)%N) eqn:E6; [apply (Z0 1 1 _ E6); reflexivity|].
  destruct (_ && (n =? 12)%N) eqn:E12; [apply (Z0 2 1 _ E12); reflexivity|].
  destruct (_ && (n =? 24)%N) eqn:E24; [apply (Z0 3 1 _ E24); reflexivity|].
  change ([] : str) with (rep "." 0). apply reads_pct.
  rewrite dot_factor_0, <- H. ring.
Qed.

(** ** Texts of two thirds of a power of two *)

Lemma qnum_one_pos q n m :
  (q == n # m)%Q -> qnum q = 1%Z -> (n * Zpos (qden q) = Zpos m)%Z.
Proof.
  intros E H. apply qnum_one in H. pose proof (Qeq_trans _ _ _ H E) as H'.
  unfold Qeq in H'. cbn in H'. lia.
Qed.

Lemma pow2_even a : (1 <= a)%nat -> (2 ^ Z.of_nat a = 2 * 2 ^ (Z.of_nat a - 1))%Z.
Proof.
  intro H. rewrite <- Z.pow_succ_r by lia. f_equal. lia.
Qed.

Lemma pow2_gcd3 a : Z.gcd (2 ^ Z.of_nat a) 3 = 1%Z.
Proof.
  apply Znumtheory.Zgcd_1_rel_prime. apply Znumtheory.rel_prime_sym.
  apply Zpow_facts.rel_prime_Zpower_r; [lia|]. apply Znumtheory.Zgcd_1_rel_prime. reflexivity.
Qed.

Lemma durationToRecip_two_thirds x :
  (0 <= x)%Q -> isPowerOfTwo x = true ->
  dot_base (durationToRecip (x / (3 # 2))) (x / 6).
Proof.
  intros Hx HP. destruct (isPowerOfTwo_cases x Hx HP) as (a & [E|(p & E & _)]).
  - destruct a as [|[|a]].
    + (* x = 1 *)
      assert (W : (x / (3 # 2) / 4 == 1 # 6)%Q) by (rewrite E; reflexivity).
      destruct (qnum_qden_eq _ _ _ W eq_refl) as [Hn Hd].
      unfold durationToRecip. cbv zeta. rewrite Hn, Hd. cbn [Z.eqb Pos.eqb].
      eapply dot_base_eq; [|apply dot_base_plain]. rewrite E. reflexivity.
    + (* x = 2 *)
      assert (W : (x / (3 # 2) / 4 == 1 # 3)%Q) by (rewrite E; reflexivity).
      destruct (qnum_qden_eq _ _ _ W eq_refl) as [Hn Hd].
      unfold durationToRecip. cbv zeta. rewrite Hn, Hd. cbn [Z.eqb Pos.eqb].
      eapply dot_base_eq; [|apply dot_base_plain]. rewrite E. reflexivity.
    + (* x = 2^(a+2) *)
      set (P := (2 ^ Z.of_nat (S a))%Z).
      assert (HPa : (2 ^ Z.of_nat (S (S a)) = 2 * P)%Z).
      { unfold P. rewrite (Nat2Z.inj_succ (S a)), Z.pow_succ_r by lia. reflexivity. }
      assert (Pev : exists k, P = (2 * k)%Z /\ (0 < k)%Z).
      { exists (2 ^ Z.of_nat a)%Z. unfold P. rewrite Nat2Z.inj_succ, Z.pow_succ_r by lia.
        split; [reflexivity|apply Z.pow_pos_nonneg; lia]. }
      destruct Pev as (kk & Pk & Kpos).
      assert (W : (x / (3 # 2) / 4 == P # 3)%Q).
      { rewrite E, HPa, inject_Z_mult, (Qmake_Qdiv P 3).
        change (inject_Z 2) with 2%Q. change (inject_Z 3) with 3%Q. field. }
      destruct (qnum_qden_eq _ _ _ W (pow2_gcd3 (S a))) as [Hn Hd].
      assert (NI : forall k : Z, Qeq_bool (x / (3 # 2) / 4) (inject_Z k) = false).
      { intro k. destruct (Qeq_bool _ _) eqn:B; [|reflexivity]. exfalso.
        apply Qeq_bool_eq' in B. rewrite W in B. unfold Qeq in B. cbn in B.
        pose proof (pow2_gcd3 (S a)) as G. fold P in G.
        assert (Dv : (3 | P)%Z) by (exists k; lia).
        assert (D3 : (3 | Z.gcd P 3)%Z) by (apply Z.gcd_greatest; [exact Dv|exists 1%Z; lia]).
        rewrite G in D3. destruct D3 as [c Hc]. lia. }
      assert (ND : forall n m : positive, Z.odd (Zpos m) = true ->
                 qnum (x / (3 # 2) / 4 * (2 * Zpos n # m)) <> 1%Z).
      { intros n m Om H1.
        assert (W' : (x / (3 # 2) / 4 * (2 * Zpos n # m) == P * (2 * Zpos n) # (3 * m))%Q).
        { rewrite W. unfold Qeq. cbn. lia. }
        pose proof (qnum_one_pos _ _ _ W' H1) as B.
        rewrite Pos2Z.inj_mul in B.
        pose proof (Z.odd_mul 3 (Zpos m)) as O. rewrite Om in O. rewrite <- B in O.
        rewrite !Z.odd_mul in O. change (Z.odd 2) with false in O.
        rewrite !andb_false_r, ?andb_false_l in O. cbn in O.
        rewrite ?andb_false_r in O. discriminate O. }
      unfold durationToRecip. cbv zeta. rewrite Hn, Hd.
      destruct (Z.eqb_spec P 1); [lia|].
      change 2%Q with (inject_Z 2) at 1. rewrite (NI 2%Z).
      pose proof (NI 3%Z) as N3. pose proof (NI 4%Z) as N4. pose proof (NI 6%Z) as N6.
      pose proof (NI 8%Z) as N8. pose proof (NI 12%Z) as N12.
      unfold inject_Z in N3, N4, N6, N8, N12. rewrite N3, N4, N6, N8, N12.
      destruct (Z.eqb_spec P 0); [lia|].
      destruct (Z.eqb_spec (qnum (x / (3 # 2) / 4 * (2 # 3))) 1) as [B|_];
        [exfalso; apply (ND 1%positive 3%positive eq_refl B)|].
      destruct (Z.eqb_spec (qnum (x / (3 # 2) / 4 * (4 # 7))) 1) as [B|_];
        [exfalso; apply (ND 2%positive 7%positive eq_refl B)|].
      destruct (Z.eqb_spec (qnum (x / (3 # 2) / 4 * (8 # 15))) 1) as [B|_];
        [exfalso; apply (ND 4%positive 15%positive eq_refl B)|].
      rewrite show_Z_nonneg by lia.
      eapply dot_base_eq; [|apply dot_base_pct].
      rewrite Z2N.id by lia. rewrite E, HPa, inject_Z_mult, (Qmake_Qdiv P 3).
      change (inject_Z 2) with 2%Q. change (inject_Z 3) with 3%Q. field.
  - assert (W : (x / (3 # 2) / 4 == 1 # (6 * p))%Q).
    { rewrite E. unfold Qeq. cbn. lia. }
    destruct (qnum_qden_eq _ _ _ W) as [Hn Hd]; [apply Z.gcd_1_l|].
    unfold durationToRecip. cbv zeta. rewrite Hn, Hd. cbn [Z.eqb Pos.eqb].
    eapply dot_base_eq; [|apply dot_base_plain]. rewrite E. unfold Qeq. cbn. lia.
Qed.

(** ** The whole function *)

Definition fst_part (inT : bool) (dur : Q) (dots : str) : str :=
  if (qnum dur =? 1)%Z then show_pos (qden dur) ++ dots
  else rewrite_pct inT (Npos (qden dur)) (Z.to_N (qnum dur)) dots
         (show_pos (qden dur) ++ S_ "%" ++ show_Z (qnum dur) ++ dots).

Lemma fst_part_base inT w k :
  (0 <= w)%Q -> (inT = true \/ k <> 0) ->
  exists b, fst_part inT w (rep "." k) = b ++ rep "." k /\ dot_base b w.
Proof.
  intros Hw HT. unfold fst_part. pose proof (qnum_nonneg w Hw) as Hn.
  destruct (Z.eqb_spec (qnum w) 1) as [E|N1].
  - exists (show_pos (qden w)). split; [reflexivity|].
    eapply dot_base_eq; [apply qnum_one, E|apply dot_base_plain].
  - rewrite show_Z_nonneg by exact Hn.
    destruct (rewrite_pct_base inT (qden w) (Z.to_N (qnum w)) k HT) as (b & E & D).
    exists b. split; [exact E|]. eapply dot_base_eq; [|exact D].
    rewrite Z2N.id by exact Hn. apply qfrac_red.
Qed.

Lemma fst_part_plain w d :
  (0 <= w)%Q -> (w * 4 == d)%Q -> reads_as (fst_part false w []) d.
Proof.
  intros Hw E. unfold fst_part. pose proof (qnum_nonneg w Hw) as Hn.
  destruct (Z.eqb_spec (qnum w) 1) as [E1|N1].
  - change ([] : str) with (rep "." 0). apply reads_plain.
    rewrite (qnum_one _ E1), dot_factor_0, <- E. ring.
  - rewrite show_Z_nonneg by exact Hn. apply rewrite_pct_reads.
    rewrite Z2N.id by exact Hn. rewrite qfrac_red. exact E.
Qed.

(** The rhythm text is written from these ingredients. *)
Definition tuplet_part (out1 : str) : str :=
  let noDots := hd [] (split_char "." out1) in
  match recip_eval noDots 4 with
  | Rhythm durNoDots =>
      if isPowerOfTwo durNoDots
      then durationToRecip (durNoDots / (3 # 2))%Q ++ rep "." (count_char "." out1 + 1)
      else out1
  | _ => out1
  end.

Lemma kernRecip_tuplet_reads w k d :
  (0 <= w)%Q -> (w * dot_factor k * 4 == d)%Q ->
  (k = 0 \/ ~ is_power_of_two (w * 4)) ->
  reads_as (tuplet_part (fst_part true w (rep "." k))) d.
Proof.
  intros Hw E HK. destruct (fst_part_base true w k Hw (or_introl eq_refl)) as (b & -> & D).
  unfold tuplet_part. cbv zeta. destruct D as [Hb Hr].
  rewrite split_base by exact Hb. rewrite count_base by exact Hb.
  destruct (Hr 0) as (x & Hx & Hq). cbn [rep repeat] in Hx. rewrite app_nil_r in Hx.
  rewrite Hx. rewrite dot_factor_0, Qmult_1_r in Hq.
  assert (Hx0 : (0 <= x)%Q).
  { rewrite Hq. apply Qmult_le_0_compat; [exact Hw|discriminate]. }
  destruct (isPowerOfTwo x) eqn:P2.
  - destruct HK as [->|HK].
    + eapply dot_base_reads; [apply durationToRecip_two_thirds; [exact Hx0|exact P2]|].
      rewrite <- E, Hq. rewrite dot_factor_0, dot_factor_1. field.
    + exfalso. apply HK. apply (isPowerOfTwo_spec x Hx0) in P2. destruct P2 as [z Hz].
      exists z. rewrite <- Hz, Hq. reflexivity.
  - eapply dot_base_reads; [split; [exact Hb|exact Hr]|exact E].
Qed.

Lemma qdiv4_nonneg q : (0 <= q)%Q -> (0 <= q / 4)%Q.
Proof. intro H. unfold Qdiv. apply Qmult_le_0_compat; [exact H|discriminate]. Qed.

Lemma nontuplet_reads ql :
  (0 <= ql)%Q ->
  let dur := (ql / 4)%Q in
  reads_as
    (let '(f, dots) :=
       if (qnum dur =? 1)%Z then (dur, [])
       else if (qnum (dur * 2 / 3) =? 1)%Z then ((dur * 2 / 3)%Q, S_ ".")
       else if (qnum (dur * 4 / 7) =? 1)%Z then ((dur * 4 / 7)%Q, S_ "..")
       else if (qnum (dur * 8 / 15) =? 1)%Z then ((dur * 8 / 15)%Q, S_ "...")
       else (dur, []) in fst_part false f dots) ql.
Proof.
  intros H dur. pose proof (qdiv4_nonneg ql H) as H4. fold dur in H4.
  assert (Hm : forall k : Q, (0 <= k)%Q -> (0 <= dur * k)%Q).
  { intros k Hk. apply Qmult_le_0_compat; assumption. }
  destruct (Z.eqb_spec (qnum dur) 1) as [E1|N1].
  { apply fst_part_plain; [exact H4|]. unfold dur. field. }
  destruct (Z.eqb_spec (qnum (dur * 2 / 3)) 1) as [D1|].
  { change (reads_as (fst_part false (dur * 2 / 3) (rep "." 1)) ql).
    destruct (fst_part_base false (dur * 2 / 3) 1) as (b & -> & D); [|right; discriminate|].
    - unfold Qdiv. rewrite <- Qmult_assoc. apply Hm. discriminate.
    - eapply dot_base_reads; [exact D|]. rewrite dot_factor_1. unfold dur. field. }
  destruct (Z.eqb_spec (qnum (dur * 4 / 7)) 1) as [D2|].
  { change (reads_as (fst_part false (dur * 4 / 7) (rep "." 2)) ql).
    destruct (fst_part_base false (dur * 4 / 7) 2) as (b & -> & D); [|right; discriminate|].
    - unfold Qdiv. rewrite <- Qmult_assoc. apply Hm. discriminate.
    - eapply dot_base_reads; [exact D|]. rewrite dot_factor_2. unfold dur. field. }
  destruct (Z.eqb_spec (qnum (dur * 8 / 15)) 1) as [D3|].
  { change (reads_as (fst_part false (dur * 8 / 15) (rep "." 3)) ql).
    destruct (fst_part_base false (dur * 8 / 15) 3) as (b & -> & D); [|right; discriminate|].
    - unfold Qdiv. rewrite <- Qmult_assoc. apply Hm. discriminate.
    - eapply dot_base_reads; [exact D|]. rewrite dot_factor_3. unfold dur. field. }
  apply fst_part_plain; [exact H4|]. unfold dur. field.
Qed.

(** music21's own invariant on the durations considered: not a grace note, a
    non-negative length, and a linked one-tuplet duration has the length its
    type, dots and tuplet say. *)
Definition duration_consistent (d : m21_duration) : Prop :=
  d_isGrace d = false /\ (0 <= d_quarterLength d)%Q /\
  (d_linked d = true -> forall m, d_tuplets d = [m] ->
     (0 <= d_typeQL d)%Q /\ (0 <= m)%Q /\
     (d_quarterLength d == d_typeQL d * dot_factor (d_dots d) * m)%Q).

(** A dotted note whose undotted length inside its tuplet is a power of two. *)
Definition dotted_power_of_two_tuplet (d : m21_duration) : Prop :=
  d_linked d = true /\ d_dots d <> 0 /\
  exists m, d_tuplets d = [m] /\ is_power_of_two (d_typeQL d * m).

Theorem kernRecip_reads d :
  duration_consistent d -> ~ dotted_power_of_two_tuplet d ->
  reads_as (kernRecipFromM21Duration d) (d_quarterLength d).
Proof.
  intros (Hg & Hql & Hc) Hnot. unfold kernRecipFromM21Duration. rewrite Hg.
  destruct (d_linked d) eqn:L.
  - destruct (d_tuplets d) as [|m [|m2 ms]] eqn:T.
    + pose proof (nontuplet_reads (d_quarterLength d) Hql) as R. cbv zeta in R.
      repeat match goal with
             | |- context [if ?b then _ else _] => destruct b; [exact R|]
             end; exact R.
    + destruct (Hc eq_refl m eq_refl) as (Ht & Hm & Eq).
      apply (kernRecip_tuplet_reads (d_typeQL d * m / 4) (d_dots d)).
      * apply qdiv4_nonneg, Qmult_le_0_compat; assumption.
      * rewrite Eq. field.
      * destruct (d_dots d) as [|k] eqn:Dd; [left; reflexivity|]. right.
        intros [z Hz]. apply Hnot. split; [exact L|]. rewrite Dd. split; [discriminate|].
        exists m. split; [exact T|]. exists z. rewrite <- Hz. field.
    + pose proof (nontuplet_reads (d_quarterLength d) Hql) as R. cbv zeta in R.
      repeat match goal with
             | |- context [if ?b then _ else _] => destruct b; [exact R|]
             end; exact R.
  - destruct (d_tuplets d) as [|m [|m2 ms]] eqn:T.
    + pose proof (nontuplet_reads (d_quarterLength d) Hql) as R. cbv zeta in R.
      repeat match goal with
             | |- context [if ?b then _ else _] => destruct b; [exact R|]
             end; exact R.
    + change ([] : str) with (rep "." 0).
      apply (kernRecip_tuplet_reads (d_quarterLength d / 4) 0).
      * apply qdiv4_nonneg, Hql.
      * rewrite dot_factor_0. field.
      * left; reflexivity.
    + pose proof (nontuplet_reads (d_quarterLength d) Hql) as R. cbv zeta in R.
      repeat match goal with
             | |- context [if ?b then _ else _] => destruct b; [exact R|]
             end; exact R.
Qed.

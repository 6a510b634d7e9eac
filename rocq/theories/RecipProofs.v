(** Proofs about the rhythm text functions. *)
From Verif Require Import PyStr PyStrProofs RecipModel.
From Coq Require Import QArith Qreduction Qfield.
Local Close Scope Q_scope.
Local Opaque show_N.

(** ** Reading back the texts the writers produce *)

Lemma search_pct_none s : char_in "%" s = false -> search_pct s = None.
Proof.
  induction s as [|c s IH]; intro H; [reflexivity|].
  cbn [search_pct].
  assert (Hm : match_pct (c :: s) = None).
  { unfold match_pct. pose proof (span_join is_digit (c :: s)) as J.
    destruct (span is_digit (c :: s)) as [a b]. cbn [fst snd] in J.
    destruct a as [|x a]; [reflexivity|].
    destruct b as [|y b]; [reflexivity|].
    destruct (Ascii.eqb "%" y) eqn:E.
    - apply Ascii.eqb_eq in E; subst y. exfalso.
      rewrite <- J, char_in_app in H. apply orb_false_iff in H as [_ H].
      discriminate H.
    - destruct y as [[] [] [] [] [] [] [] []]; try reflexivity. discriminate E. }
  rewrite Hm. apply IH.
  unfold char_in in *. cbn [existsb] in H. apply orb_false_iff in H. tauto.
Qed.

Lemma rep_no_char c d k : Ascii.eqb c d = false -> char_in c (rep d k) = false.
Proof.
  intro H. unfold rep, char_in. induction k as [|k IH]; [reflexivity|].
  cbn [repeat existsb]. rewrite H. exact IH.
Qed.

Lemma count_rep_same c k : count_char c (rep c k) = k.
Proof.
  unfold rep, count_char. induction k as [|k IH]; [reflexivity|].
  cbn [repeat filter]. rewrite Ascii.eqb_refl. cbn [length]. congruence.
Qed.

Lemma count_rep_other c d k : Ascii.eqb c d = false -> count_char c (rep d k) = 0.
Proof. intro H. apply count_char_not_in, rep_no_char, H. Qed.

Lemma rep_dot_head k : match rep "." k with [] => True | c :: _ => is_digit c = false end.
Proof. destruct k; [exact I|reflexivity]. Qed.

Lemma first_subtoken_nospace s : char_in " " s = false -> first_subtoken s = s.
Proof. intro H. unfold first_subtoken. rewrite split_char_no_sep by exact H. reflexivity. Qed.

Lemma search_digits_show n rest :
  match rest with [] => True | c :: _ => is_digit c = false end ->
  search_digits (show_N n ++ rest) = Some (show_N n).
Proof.
  intro H. destruct (show_N_cons n) as (c & s & E & Hc).
  pose proof (show_N_digits n) as D. rewrite E in *.
  rewrite <- app_comm_cons. cbn [search_digits]. rewrite Hc.
  rewrite app_comm_cons, span_app_all; [reflexivity|exact D|exact H].
Qed.

Lemma nonzero_head {A} c s (x y : A) :
  Ascii.eqb c "0" = false ->
  match c :: s with "0"%char :: _ => x | _ => y end = y.
Proof.
  intro H. destruct c as [[] [] [] [] [] [] [] []]; try reflexivity. discriminate H.
Qed.

Lemma show_no_char c n : is_digit c = false -> char_in c (show_N n) = false.
Proof. intro H. apply digits_no_char; [exact H|apply show_N_digits]. Qed.

Ltac nochar :=
  rewrite ?char_in_app; rewrite ?show_no_char by reflexivity;
  rewrite ?rep_no_char by reflexivity; reflexivity.

Lemma recip_eval_plain p k scale :
  recip_eval (show_pos p ++ rep "." k) scale = Rhythm ((1 # p) * dot_factor k * scale)%Q.
Proof.
  unfold recip_eval, show_pos.
  rewrite char_in_app, show_no_char, rep_no_char by reflexivity. cbn [orb].
  rewrite first_subtoken_nospace
    by nochar.
  rewrite search_pct_none by nochar.
  rewrite count_char_app, count_rep_same,
    (count_char_not_in "." (show_N _)) by (apply show_no_char; exact eq_refl).
  rewrite search_digits_show by apply rep_dot_head.
  destruct (show_N_head (Npos p)) as (d & s & E & Hd); [lia|].
  pose proof (parse_show_N (Npos p)) as P.
  rewrite E in *. rewrite (nonzero_head (digit_char d) s).
  - rewrite P. reflexivity.
  - destruct (Ascii.eqb (digit_char d) "0") eqn:Z; [|reflexivity].
    apply digit_char_0 in Z; lia.
Qed.

Lemma search_pct_show n m rest :
  match rest with [] => True | c :: _ => is_digit c = false end ->
  search_pct (show_N n ++ S_ "%" ++ show_N m ++ rest) = Some (show_N n, show_N m).
Proof.
  intro H. destruct (show_N_cons n) as (c & s & E & Hc).
  destruct (show_N_cons m) as (c' & s' & E' & Hc').
  pose proof (show_N_digits n) as D. pose proof (show_N_digits m) as D'.
  assert (M : match_pct (show_N n ++ S_ "%" ++ show_N m ++ rest) = Some (show_N n, show_N m)).
  { unfold match_pct. rewrite span_app_all; [|exact D|reflexivity].
    rewrite E at 1. cbn [S_ list_ascii_of_string app].
    rewrite span_app_all; [|exact D'|exact H].
    rewrite E' at 1. rewrite E, E'. reflexivity. }
  rewrite E at 1. rewrite <- app_comm_cons. cbn [search_pct].
  rewrite app_comm_cons, <- E, M. reflexivity.
Qed.

Lemma recip_eval_pct p n k scale :
  recip_eval (show_pos p ++ S_ "%" ++ show_N n ++ rep "." k) scale
  = Rhythm ((Z.of_N n # p) * dot_factor k * scale)%Q.
Proof.
  unfold recip_eval, show_pos.
  rewrite !char_in_app, !show_no_char, rep_no_char by reflexivity. cbn [orb].
  change (char_in "q" (S_ "%")) with false. cbn [orb].
  rewrite first_subtoken_nospace
    by nochar.
  rewrite search_pct_show by apply rep_dot_head.
  rewrite !count_char_app, count_rep_same,
    !(count_char_not_in "." (show_N _)) by (apply show_no_char; exact eq_refl).
  rewrite !parse_show_N. cbn [mk_frac]. reflexivity.
Qed.

Lemma span_rep_zero z k :
  span is_digit (rep "0" z ++ rep "." k) = (rep "0" z, rep "." k).
Proof.
  apply span_app_all; [|apply rep_dot_head].
  induction z as [|z IH]; [reflexivity|]. cbn. exact IH.
Qed.

Lemma recip_eval_zeros z k scale :
  recip_eval (rep "0" (S z) ++ rep "." k) scale
  = Rhythm (inject_Z (2 ^ Z.of_nat (S z)) * dot_factor k * scale)%Q.
Proof.
  unfold recip_eval.
  rewrite char_in_app, !rep_no_char by reflexivity. cbn [orb].
  rewrite first_subtoken_nospace by nochar.
  rewrite search_pct_none by nochar.
  rewrite count_char_app, count_rep_same, count_rep_other by reflexivity.
  pose proof (span_rep_zero (S z) k) as SP.
  change (rep "0" (S z)) with ("0"%char :: rep "0" z) in *.
  rewrite <- app_comm_cons in *. cbn [search_digits].
  change (is_digit "0") with true. cbn match. rewrite SP. cbn [fst].
  change ("0"%char :: rep "0" z) with (rep "0" (S z)).
  rewrite (count_rep_same "0" (S z)). reflexivity.
Qed.

(** ** Rational arithmetic *)

Lemma dot_factor_0 : (dot_factor 0 == 1)%Q. Proof. reflexivity. Qed.
Lemma dot_factor_1 : (dot_factor 1 == 3 # 2)%Q. Proof. reflexivity. Qed.
Lemma dot_factor_2 : (dot_factor 2 == 7 # 4)%Q. Proof. reflexivity. Qed.
Lemma dot_factor_3 : (dot_factor 3 == 15 # 8)%Q. Proof. reflexivity. Qed.

Lemma qfrac_red (q : Q) : (qnum q # qden q == q)%Q.
Proof. unfold qnum, qden. pose proof (Qred_correct q) as H. destruct (Qred q); exact H. Qed.

Lemma qnum_one q : qnum q = 1%Z -> (1 # qden q == q)%Q.
Proof. intro H. rewrite <- H. apply qfrac_red. Qed.

Lemma qnum_nonneg q : (0 <= q)%Q -> (0 <= qnum q)%Z.
Proof.
  intro H. rewrite <- (qfrac_red q) in H. unfold Qle in H. cbn in H. lia.
Qed.

Lemma show_Z_nonneg z : (0 <= z)%Z -> show_Z z = show_N (Z.to_N z).
Proof. destruct z; intros; try reflexivity. lia. Qed.

Lemma qmul4 d x : (d / 4 == x)%Q -> (x * 4 == d)%Q.
Proof. intro H. rewrite <- H. field. Qed.

(** Reading a text at the default scale. *)
Definition reads_as (s : str) (d : Q) : Prop :=
  exists x, recip_eval s 4 = Rhythm x /\ (x == d)%Q.

Lemma reads_plain p k d :
  ((1 # p) * dot_factor k * 4 == d)%Q -> reads_as (show_pos p ++ rep "." k) d.
Proof. intro H. eexists; split; [apply recip_eval_plain|exact H]. Qed.

Lemma reads_pct p n k d :
  ((Z.of_N n # p) * dot_factor k * 4 == d)%Q ->
  reads_as (show_pos p ++ S_ "%" ++ show_N n ++ rep "." k) d.
Proof. intro H. eexists; split; [apply recip_eval_pct|exact H]. Qed.

Lemma reads_zeros z k d :
  (inject_Z (2 ^ Z.of_nat (S z)) * dot_factor k * 4 == d)%Q ->
  reads_as (rep "0" (S z) ++ rep "." k) d.
Proof. intro H. eexists; split; [apply recip_eval_zeros|exact H]. Qed.

Lemma reads_ratio_nodots d : (0 <= d)%Q ->
  reads_as (show_pos (qden (d / 4)) ++ S_ "%" ++ show_Z (qnum (d / 4))) d.
Proof.
  intro H.
  assert (H0 : (0 <= d / 4)%Q).
  { unfold Qdiv. apply Qmult_le_0_compat; [exact H|discriminate]. }
  rewrite show_Z_nonneg by (apply qnum_nonneg; exact H0).
  rewrite <- (app_nil_r (show_N _)). apply (reads_pct _ _ 0).
  rewrite Z2N.id by (apply qnum_nonneg; exact H0).
  rewrite qfrac_red, dot_factor_0. field.
Qed.

Lemma Qeq_bool_eq' a b : Qeq_bool a b = true -> (a == b)%Q.
Proof. apply Qeq_bool_iff. Qed.

Lemma reads_whole_one d : qnum (d / 4) = 1%Z -> reads_as (show_pos (qden (d / 4))) d.
Proof.
  intro H. rewrite <- (app_nil_r (show_pos _)). apply (reads_plain _ 0).
  apply qnum_one in H. rewrite H, dot_factor_0. field.
Qed.

Theorem durationToRecip_reads d : (0 <= d)%Q -> reads_as (durationToRecip d) d.
Proof.
  intro H. unfold durationToRecip. cbv zeta.
  destruct (Z.eqb_spec (qnum (d / 4)) 1) as [E1|N1].
  { apply reads_whole_one; exact E1. }
  destruct (Qeq_bool (d / 4) 2) eqn:E2.
  { apply Qeq_bool_eq', qmul4 in E2. apply (reads_zeros 0 0). rewrite <- E2. reflexivity. }
  destruct (Qeq_bool (d / 4) 3) eqn:E3.
  { apply Qeq_bool_eq', qmul4 in E3. apply (reads_zeros 0 1). rewrite <- E3. reflexivity. }
  destruct (Qeq_bool (d / 4) 4) eqn:E4.
  { apply Qeq_bool_eq', qmul4 in E4. apply (reads_zeros 1 0). rewrite <- E4. reflexivity. }
  destruct (Qeq_bool (d / 4) 6) eqn:E6.
  { apply Qeq_bool_eq', qmul4 in E6. apply (reads_zeros 1 1). rewrite <- E6. reflexivity. }
  destruct (Qeq_bool (d / 4) 8) eqn:E8.
  { apply Qeq_bool_eq', qmul4 in E8. apply (reads_zeros 2 0). rewrite <- E8. reflexivity. }
  destruct (Qeq_bool (d / 4) 12) eqn:E12.
  { apply Qeq_bool_eq', qmul4 in E12. apply (reads_zeros 2 1). rewrite <- E12. reflexivity. }
  destruct (Z.eqb_spec (qnum (d / 4)) 0) as [E0|N0].
  { eexists; split; [reflexivity|]. pose proof (qfrac_red (d / 4)) as R. rewrite E0 in R.
    symmetry in R. apply qmul4 in R. rewrite <- R. reflexivity. }
  destruct (Z.eqb_spec (qnum (d / 4 * (2 # 3))) 1) as [D1|].
  { apply (reads_plain _ 1). apply qnum_one in D1. rewrite D1, dot_factor_1. field. }
  destruct (Z.eqb_spec (qnum (d / 4 * (4 # 7))) 1) as [D2|].
  { apply (reads_plain _ 2). apply qnum_one in D2. rewrite D2, dot_factor_2. field. }
  destruct (Z.eqb_spec (qnum (d / 4 * (8 # 15))) 1) as [D3|].
  { apply (reads_plain _ 3). apply qnum_one in D3. rewrite D3, dot_factor_3. field. }
  apply reads_ratio_nodots; exact H.
Qed.

Theorem createRecip_reads d : (0 < d)%Q -> reads_as (createRecipTokenFromDuration d) d.
Proof.
  intro H. unfold createRecipTokenFromDuration. cbv zeta.
  destruct (Z.eqb_spec (qnum (d / 4)) 0) as [E0|N0].
  { exfalso. pose proof (qfrac_red (d / 4)) as R. rewrite E0 in R.
    symmetry in R. apply qmul4 in R. rewrite <- R in H. discriminate H. }
  destruct (Z.eqb_spec (qnum (d / 4)) 1) as [E1|N1].
  { apply reads_whole_one; exact E1. }
  destruct (qnum (d / 4) mod 3 =? 0)%Z.
  - destruct (Z.eqb_spec (qnum (d / 4 * (2 # 3))) 1) as [D1|].
    { apply (reads_plain _ 1). apply qnum_one in D1. rewrite D1, dot_factor_1. field. }
    apply reads_ratio_nodots, Qlt_le_weak; exact H.
  - apply reads_ratio_nodots, Qlt_le_weak; exact H.
Qed.

(** ** The memo table *)

(** Every cached entry agrees with a fresh evaluation at scale [sc]. *)
Definition cache_ok (sc : Q) (c : recip_cache) : Prop :=
  forall k v, cache_get c k = Some v -> recip_eval k sc = Rhythm v.

Lemma cache_ok_step sc c k :
  cache_ok sc c -> cache_ok sc (snd (recipToDuration c k sc)).
Proof.
  intros H. unfold recipToDuration.
  destruct (cache_get c k) eqn:G; [exact H|].
  destruct (recip_eval k sc) eqn:E; cbn [snd]; try exact H.
  intros k' v'. cbn [cache_get]. destruct (str_eqb k' k) eqn:S.
  - apply str_eqb_eq in S; subst. intro A; inversion A; subst. exact E.
  - apply H.
Qed.

Lemma run_recip_ok sc h c :
  cache_ok sc c -> (forall call, In call h -> snd call = sc) ->
  cache_ok sc (fold_left (fun c call => snd (recipToDuration c (fst call) (snd call))) h c).
Proof.
  revert c. induction h as [|[k s] h IH]; intros c Hc Hs; cbn [fold_left]; [exact Hc|].
  apply IH.
  - assert (s = sc) by (apply (Hs (k, s)); left; reflexivity). subst. apply cache_ok_step, Hc.
  - intros call Hin. apply Hs. right; exact Hin.
Qed.

Lemma recip_with_ok_cache sc c k :
  cache_ok sc c -> fst (recipToDuration c k sc) = fst (recipToDuration [] k sc).
Proof.
  intro H. unfold recipToDuration. cbn [cache_get].
  destruct (cache_get c k) eqn:G.
  - apply H in G. rewrite G. reflexivity.
  - destruct (recip_eval k sc); reflexivity.
Qed.

Theorem recip_history_independent sc h k :
  (forall call, In call h -> snd call = sc) ->
  fst (recipToDuration (run_recip h) k sc) = fst (recipToDuration [] k sc).
Proof.
  intro Hs. apply recip_with_ok_cache, run_recip_ok; [|exact Hs].
  intros k' v'. discriminate.
Qed.

Lemma reads_as_call s d :
  reads_as s d -> exists x, fst (recipToDuration [] s 4) = Some x /\ (x == d)%Q.
Proof.
  intros (x & E & Hx). exists x. split; [|exact Hx].
  unfold recipToDuration. cbn [cache_get]. rewrite E. reflexivity.
Qed.

Theorem durationToRecip_roundtrip h d :
  (forall call, In call h -> snd call = 4%Q) -> (0 <= d)%Q ->
  exists x, fst (recipToDuration (run_recip h) (durationToRecip d) 4) = Some x /\ (x == d)%Q.
Proof.
  intros Hh Hd. rewrite recip_history_independent by exact Hh.
  apply reads_as_call, durationToRecip_reads, Hd.
Qed.

Theorem createRecip_roundtrip h d :
  (forall call, In call h -> snd call = 4%Q) -> (0 < d)%Q ->
  exists x, fst (recipToDuration (run_recip h) (createRecipTokenFromDuration d) 4) = Some x
            /\ (x == d)%Q.
Proof.
  intros Hh Hd. rewrite recip_history_independent by exact Hh.
  apply reads_as_call, createRecip_reads, Hd.
Qed.

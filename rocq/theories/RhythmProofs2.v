(** The whole rhythm analysis: the passes over lines, and the clock theorem. *)
From Verif Require Import PyStr PyStrProofs RecipModel SpineModel LinkProofs RhythmModel RhythmProofs.
From Coq Require Import QArith.
From Coq Require Qcanon.
Local Close Scope Q_scope.

(** ** Null lines *)

Lemma spread_length sd nd : forall nulls j starts, length (spread sd nd j nulls starts) = length starts.
Proof. induction nulls as [|n nulls IH]; intros j starts; cbn [spread]; [reflexivity|]. rewrite IH. apply upd_length. Qed.

Lemma spread_other sd nd i : forall nulls j starts, ~ In i nulls ->
  nth i (spread sd nd j nulls starts) (-1)%Q = nth i starts (-1)%Q.
Proof.
  induction nulls as [|n nulls IH]; intros j starts N; cbn [spread]; [reflexivity|].
  rewrite IH by (intros X; apply N; right; exact X). rewrite nth_upd.
  destruct (n =? i) eqn:E; [|reflexivity]. apply Nat.eqb_eq in E. exfalso. apply N. left. exact E.
Qed.

Lemma spread_nth sd nd : forall nulls j starts k i, NoDup nulls -> nth_error nulls k = Some i -> i < length starts ->
  nth i (spread sd nd j nulls starts) (-1)%Q = (sd + nd * inject_Z (Z.of_nat (j + k) + 1))%Q.
Proof.
  induction nulls as [|n nulls IH]; intros j starts k i ND K L; [destruct k; discriminate|].
  inversion ND as [|? ? A B]; subst. destruct k as [|k]; cbn [spread].
  - injection K as ->. rewrite spread_other by assumption. rewrite nth_upd, Nat.eqb_refl.
    replace (i <? length starts) with true by (symmetry; apply Nat.ltb_lt; exact L).
    replace (j + 0) with j by lia. reflexivity.
  - rewrite (IH (S j) _ k i); [|exact B|exact K|rewrite upd_length; exact L].
    replace (S j + k) with (j + S k) by lia. reflexivity.
Qed.

(** A line keeps its time unless it is a null data line. *)
Lemma null_loop_keeps lines0 : forall lines i prev nulls starts r,
  (forall k, k < length lines -> nth_error lines0 (i + k) = nth_error lines k) ->
  (forall n, In n nulls -> exists l, nth_error lines0 n = Some l /\ l_allnull l = true /\ l_data l = true) ->
  null_loop i lines prev nulls starts = Some r ->
  length r = length starts /\
  forall m, (forall l, nth_error lines0 m = Some l -> l_allnull l && l_data l = false) ->
    nth m r (-1)%Q = nth m starts (-1)%Q.
Proof.
  induction lines as [|l lines IH]; intros i prev nulls starts r E N H; cbn [null_loop] in H.
  - injection H as <-. auto.
  - assert (E' : forall k, k < length lines -> nth_error lines0 (S i + k) = nth_error lines k).
    { intros k Hk. specialize (E (S k)). cbn [nth_error length] in E. replace (i + S k) with (S i + k) in E by lia.
      apply E. lia. }
    assert (El : nth_error lines0 i = Some l).
    { specialize (E 0). cbn [nth_error length] in E. rewrite Nat.add_0_r in E. apply E. lia. }
    destruct (negb (l_spines l)); [eapply IH; eauto|].
    assert (N' : forall n, In n (if l_barline l then [] else nulls) ->
       exists l, nth_error lines0 n = Some l /\ l_allnull l = true /\ l_data l = true).
    { destruct (l_barline l); [intros n []|exact N]. }
    destruct (l_allnull l) eqn:A.
    + eapply (IH (S i)); [exact E'| |exact H]. intros n Hn.
      destruct (l_data l) eqn:D; [|apply N'; exact Hn].
      apply in_app_or in Hn. destruct Hn as [Hn|[<-|[]]]; [apply N'; exact Hn|]. exists l. auto.
    + destruct (neg_q (nth i starts (-1)%Q)).
      * destruct (l_data l); [discriminate|]. eapply IH; eauto.
      * destruct (if l_barline l then None else prev) as [p|].
        -- destruct (IH (S i) (Some i) [] _ r E' (fun n (F : In n []) => match F with end) H) as [L1 L2].
           split; [rewrite L1; apply spread_length|]. intros m Hm. rewrite L2 by exact Hm.
           apply spread_other. intros X. destruct (N' m X) as (l' & Y1 & Y2 & Y3).
           specialize (Hm _ Y1). rewrite Y2, Y3 in Hm. discriminate.
        -- apply (IH (S i) (Some i) [] starts r E' (fun n (F : In n []) => match F with end) H).
Qed.

(** ** Filling in *)

Definition known (q : Q) : Prop := (0 <= q)%Q.

Lemma fill_back_length l : length (fst (fill_back l)) = length l.
Proof. induction l as [|d l IH]; cbn [fill_back]; [reflexivity|]. destruct (fill_back l) as [r la]. cbn in *. congruence. Qed.
Lemma fill_forward_length l : forall la, length (fill_forward la l) = length l.
Proof. induction l as [|d l IH]; intros la; cbn [fill_forward]; [reflexivity|]. destruct (negb (neg_q d)); cbn; rewrite IH; reflexivity. Qed.

Lemma fill_back_keeps l : forall i, i < length l -> known (nth i l (-1)%Q) -> nth i (fst (fill_back l)) (-1)%Q = nth i l (-1)%Q.
Proof.
  induction l as [|d l IH]; intros i L K; [cbn in L; lia|]. cbn [fill_back].
  destruct (fill_back l) as [r la]. cbn [fst] in *. destruct i as [|i]; cbn [nth] in *.
  - apply neg_q_false in K. rewrite K. reflexivity.
  - apply IH; [cbn in L; lia|exact K].
Qed.

Lemma fill_forward_keeps l : forall i la, known (nth i l (-1)%Q) -> nth i (fill_forward la l) (-1)%Q = nth i l (-1)%Q.
Proof.
  induction l as [|d l IH]; intros i la K; [reflexivity|]. cbn [fill_forward].
  destruct i as [|i]; cbn [nth] in K.
  - apply neg_q_false in K. rewrite K. reflexivity.
  - destruct (negb (neg_q d)); cbn [nth]; apply IH; exact K.
Qed.

Lemma nth_known_lt i l : known (nth i l (-1)%Q) -> i < length l.
Proof.
  intros K. destruct (le_lt_dec (length l) i) as [H|H]; [|exact H]. rewrite nth_overflow in K by exact H.
  exfalso. apply K. reflexivity.
Qed.

Lemma fill_keeps l i : known (nth i l (-1)%Q) -> nth i (fillInMissingStartTimes l) (-1)%Q = nth i l (-1)%Q.
Proof.
  intros K. unfold fillInMissingStartTimes. pose proof (fill_back_keeps l i (nth_known_lt _ _ K) K) as B.
  destruct (fill_back l) as [r la]. cbn [fst] in B. rewrite fill_forward_keeps; [exact B|]. rewrite B. exact K.
Qed.

Lemma fill_length l : length (fillInMissingStartTimes l) = length l.
Proof.
  unfold fillInMissingStartTimes. pose proof (fill_back_length l) as B. destruct (fill_back l) as [r la].
  cbn in B. rewrite fill_forward_length. exact B.
Qed.

(** The value the backward loop ends with is the first known time. *)
Lemma fill_back_last l : (Exists known l -> known (snd (fill_back l))) /\ (~ Exists known l -> snd (fill_back l) = (-1)%Q).
Proof.
  induction l as [|d l [IH1 IH2]]; cbn [fill_back].
  - split; [intros H; inversion H|reflexivity].
  - destruct (fill_back l) as [r la]. cbn [snd] in *. split.
    + intros H. destruct (neg_q d) eqn:D; cbn [andb].
      * assert (X : Exists known l).
        { inversion H; subst; [|assumption]. apply neg_q_false in H1. congruence. }
        apply IH1 in X. pose proof (proj2 (neg_q_false la) X) as Y. rewrite Y. cbn [negb]. rewrite Y. cbn. exact X.
      * rewrite D. cbn. apply neg_q_false. exact D.
    + intros H. assert (D : neg_q d = true).
      { destruct (neg_q d) eqn:D; [reflexivity|]. exfalso. apply H. left. apply neg_q_false. exact D. }
      rewrite IH2 by (intros X; apply H; right; exact X). rewrite D. cbn. rewrite D. reflexivity.
Qed.

Lemma fill_forward_all l : forall la, known la -> Forall known (fill_forward la l).
Proof.
  induction l as [|d l IH]; intros la K; cbn [fill_forward]; [constructor|].
  destruct (neg_q d) eqn:D; cbn [negb].
  - constructor; [exact K|apply IH; exact K].
  - apply neg_q_false in D. constructor; [exact D|apply IH; exact D].
Qed.

Lemma fill_complete l : Exists known l -> Forall known (fillInMissingStartTimes l).
Proof.
  intros H. unfold fillInMissingStartTimes. destruct (fill_back_last l) as [B _]. specialize (B H).
  destruct (fill_back l) as [r la]. apply fill_forward_all. exact B.
Qed.

(** In order. *)
Fixpoint in_order (l : list Q) : Prop :=
  match l with
  | [] => True
  | [_] => True
  | a :: ((b :: _) as l') => (a <= b)%Q /\ in_order l'
  end.
Definition known_times (l : list Q) : list Q := filter (fun q => negb (neg_q q)) l.

Lemma in_order_cons a l : in_order (a :: l) <-> (forall b, In b l -> (a <= b)%Q) /\ in_order l.
Proof.
  revert a. induction l as [|b l IH]; intros a.
  - cbn. split; [intros _; split; [intros b []|exact I]|auto].
  - split.
    + intros [H1 H2]. split; [|exact H2]. apply IH in H2. destruct H2 as [H2 _].
      intros c [<-|Hc]; [exact H1|]. eapply Qle_trans; [exact H1|apply H2; exact Hc].
    + intros [H1 H2]. split; [apply H1; left; reflexivity|exact H2].
Qed.

Lemma fill_forward_order l : forall la, known la ->
  in_order (la :: known_times l) -> in_order (la :: fill_forward la l).
Proof.
  induction l as [|d l IH]; intros la K H; [exact I|].
  cbn [fill_forward]. unfold known_times in H. cbn [filter] in H. fold (known_times l) in H.
  destruct (neg_q d) eqn:D; cbn [negb] in *.
  - apply in_order_cons. pose proof (IH la K H) as X. split; [|exact X].
    apply in_order_cons in X. intros b [<-|Hb]; [apply Qle_refl|apply X; exact Hb].
  - apply neg_q_false in D. destruct H as [H1 H2].
    pose proof (IH d D H2) as X. apply in_order_cons. split; [|exact X].
    apply in_order_cons in X. intros b [<-|Hb]; [exact H1|]. eapply Qle_trans; [exact H1|apply X; exact Hb].
Qed.

Lemma fill_back_order l : in_order (known_times l) ->
  in_order (known_times (fst (fill_back l))) /\
  (Exists known l -> forall b, In b (known_times (fst (fill_back l))) -> (snd (fill_back l) <= b)%Q).
Proof.
  induction l as [|d l IH]; intros H; cbn [fill_back]; [split; [exact I|intros X; inversion X]|].
  unfold known_times in H. cbn [filter] in H. fold (known_times l) in H.
  assert (Hl : in_order (known_times l)).
  { destruct (neg_q d); cbn [negb] in H; [exact H|apply in_order_cons in H; apply H]. }
  specialize (IH Hl). destruct (fill_back_last l) as [FL1 FL2].
  destruct (fill_back l) as [r la] eqn:F. cbn [fst snd] in *. destruct IH as [IH1 IH2].
  destruct (Exists_dec known l) as [X|X].
  { intros q. destruct (Qlt_le_dec q 0) as [Y|Y]; [right; intros Z; apply (Qlt_not_le _ _ Y Z)|left; exact Y]. }
  - specialize (FL1 X). pose proof (proj2 (neg_q_false la) FL1) as L0. specialize (IH2 X).
    destruct (neg_q d) eqn:D; cbn [andb negb] in *.
    + rewrite L0. cbn [negb]. rewrite L0. cbn [negb]. unfold known_times. cbn [filter]. rewrite L0. cbn [negb].
      fold (known_times r). split; [apply in_order_cons; auto|].
      intros _ b [<-|Hb]; [apply Qle_refl|apply IH2; exact Hb].
    + rewrite D. cbn [negb]. unfold known_times. cbn [filter]. rewrite D. cbn [negb]. fold (known_times r).
      (* every known time of r is at least the first known time of l, which is at least d *)
      assert (DL : (d <= la)%Q).
      { apply in_order_cons in H. destruct H as [H _]. apply H.
        assert (G : forall l, Exists known l -> In (snd (fill_back l)) (known_times l)).
        { clear. induction l as [|d l IH]; intros X; [inversion X|]. cbn [fill_back].
          destruct (fill_back_last l) as [FL1 FL2].
          destruct (fill_back l) as [r la]. cbn [snd] in *. unfold known_times. cbn [filter]. fold (known_times l).
          destruct (neg_q d) eqn:D; cbn [andb negb].
          - assert (Y : Exists known l).
            { inversion X; subst; [|assumption]. apply neg_q_false in H0. congruence. }
            specialize (FL1 Y). apply neg_q_false in FL1. rewrite FL1. cbn [negb]. rewrite FL1. cbn. apply IH. exact Y.
          - rewrite D. cbn. left. reflexivity. }
        specialize (G l X). rewrite F in G. exact G. }
      assert (DR : forall b, In b (known_times r) -> (d <= b)%Q).
      { intros b Hb. eapply Qle_trans; [exact DL|apply IH2; exact Hb]. }
      split; [apply in_order_cons; auto|]. intros _ b [<-|Hb]; [apply Qle_refl|apply DR; exact Hb].
  - specialize (FL2 X). subst la.
    assert (KR : known_times r = []).
    { clear - F X. revert r F X. induction l as [|e l IH]; intros r F X; cbn [fill_back] in F; [injection F as <-; reflexivity|].
      destruct (fill_back_last l) as [_ FL2]. destruct (fill_back l) as [r0 la0]. cbn in FL2.
      rewrite FL2 in F by (intros Y; apply X; right; exact Y).
      assert (D : neg_q e = true).
      { destruct (neg_q e) eqn:D; [reflexivity|]. exfalso. apply X. left. apply neg_q_false. exact D. }
      rewrite D in F. cbn in F. rewrite D in F. injection F as <-. unfold known_times. cbn. rewrite D. cbn.
      apply (IH r0); [rewrite FL2 by (intros Y; apply X; right; exact Y); reflexivity|]. intros Y. apply X. right. exact Y. }
    destruct (neg_q d) eqn:D; cbn [andb negb].
    + change (neg_q (-1)%Q) with true. cbn [negb andb]. rewrite D. cbn [negb]. unfold known_times. cbn [filter]. rewrite D. cbn [negb].
      fold (known_times r). rewrite KR. split; [exact I|intros _ b []].
    + rewrite D. cbn [negb]. unfold known_times. cbn [filter]. rewrite D. cbn [negb]. fold (known_times r). rewrite KR.
      split; [exact I|]. intros _ b [<-|[]]. apply Qle_refl.
Qed.

Lemma fill_order l : in_order (known_times l) -> Exists known l -> in_order (fillInMissingStartTimes l).
Proof.
  intros H X. unfold fillInMissingStartTimes. destruct (fill_back_last l) as [FL1 _]. specialize (FL1 X).
  destruct (fill_back_order l H) as [A B]. specialize (B X). destruct (fill_back l) as [r la]. cbn [fst snd] in *.
  assert (Y : in_order (la :: fill_forward la r)).
  { apply fill_forward_order; [exact FL1|]. apply in_order_cons. auto. }
  apply in_order_cons in Y. apply Y.
Qed.

(** ** Durations *)

Fixpoint qsum (l : list Q) : Q := match l with [] => 0%Q | x :: l' => (x + qsum l')%Q end.

Lemma assign_length l : length (assignLineDurations l) = length l.
Proof.
  induction l as [|a l IH]; [reflexivity|]. destruct l as [|b l]; [reflexivity|].
  change (assignLineDurations (a :: b :: l)) with (clamp (b - a)%Q :: assignLineDurations (b :: l)).
  cbn [length]. rewrite IH. reflexivity.
Qed.

Lemma assign_nonneg l : Forall (fun d => (0 <= d)%Q) (assignLineDurations l).
Proof.
  induction l as [|a l IH]; [constructor|]. destruct l as [|b l]; [constructor; [apply Qle_refl|constructor]|].
  change (assignLineDurations (a :: b :: l)) with (clamp (b - a)%Q :: assignLineDurations (b :: l)).
  constructor; [|exact IH]. unfold clamp. destruct (Qle_bool 0 (b - a)) eqn:E; [apply Qle_bool_iff; exact E|apply Qle_refl].
Qed.

Lemma clamp_in_order a b : (a <= b)%Q -> (clamp (b - a) == b - a)%Q.
Proof.
  intros H. unfold clamp. destruct (Qle_bool 0 (b - a)) eqn:E; [reflexivity|].
  exfalso. assert (X : (0 <= b - a)%Q) by (apply -> Qle_minus_iff; exact H).
  apply Qle_bool_iff in X. congruence.
Qed.

Lemma assign_sums : forall l a k, in_order (a :: l) -> k < length (a :: l) ->
  (nth k (a :: l) (-1) == a + qsum (firstn k (assignLineDurations (a :: l))))%Q.
Proof.
  induction l as [|b l IH]; intros a k O K.
  - cbn in K. replace k with 0 by lia. cbn. ring.
  - destruct k as [|k]; [cbn; ring|]. destruct O as [O1 O2].
    change (assignLineDurations (a :: b :: l)) with (clamp (b - a)%Q :: assignLineDurations (b :: l)).
    rewrite firstn_cons. cbn [qsum]. rewrite clamp_in_order by exact O1.
    change (nth (S k) (a :: b :: l) (-1)%Q) with (nth k (b :: l) (-1)%Q).
    rewrite (IH b k O2) by (cbn in *; lia). ring.
Qed.

Lemma score_sum : forall l a, in_order (a :: l) ->
  (scoreDuration (a :: l) (assignLineDurations (a :: l)) == a + qsum (assignLineDurations (a :: l)))%Q.
Proof.
  intros l a O. unfold scoreDuration.
  assert (G : forall l a, in_order (a :: l) ->
     (last (a :: l) (-1) + last (assignLineDurations (a :: l)) (-1) == a + qsum (assignLineDurations (a :: l)))%Q).
  { clear. induction l as [|b l IH]; intros a O; [cbn; ring|]. destruct O as [O1 O2]. specialize (IH b O2).
    change (assignLineDurations (a :: b :: l)) with (clamp (b - a)%Q :: assignLineDurations (b :: l)).
    change (last (a :: b :: l) (-1)%Q) with (last (b :: l) (-1)%Q).
    destruct (assignLineDurations (b :: l)) as [|d ds] eqn:E.
    { exfalso. pose proof (assign_length (b :: l)) as X. rewrite E in X. discriminate. }
    change (last (clamp (b - a)%Q :: d :: ds) (-1)%Q) with (last (d :: ds) (-1)%Q).
    rewrite IH. cbn [qsum]. rewrite (clamp_in_order a b O1). ring. }
  apply G. exact O.
Qed.

Lemma recip_starts_sum : forall durs total k,
  k < length durs ->
  (fst (nth k (recip_starts total durs) (0, 0)) == total + qsum (map snd (firstn k (recip_starts total durs))))%Q.
Proof.
  induction durs as [|d ds IH]; intros total k K; [cbn in K; lia|]. cbn [recip_starts].
  destruct k as [|k]; [cbn; ring|]. cbv zeta. rewrite firstn_cons. cbn [nth map snd qsum].
  rewrite IH by (cbn in K; lia). ring.
Qed.

(** ** Measures *)

(** [l] is [before ++ (bar ::) inside ++ (bar :: after)]: the lines strictly
    between two barlines (or an end of the file). *)
Definition no_bar (l : list (bool * Q)) : Prop := forall e, In e l -> fst e = false.

Lemma from_barline_inside : forall inside k sum rest, no_bar inside -> k < length inside ->
  (nth k (from_barline sum (inside ++ rest)) (-1) == sum + qsum (map snd (firstn k inside)))%Q.
Proof.
  induction inside as [|[b d] inside IH]; intros k sum rest N K; [cbn in K; lia|].
  assert (B : b = false) by exact (N (b, d) (or_introl eq_refl)). subst b.
  cbn [app from_barline]. destruct k as [|k]; [cbn; ring|]. rewrite firstn_cons. cbn [nth map snd qsum].
  rewrite IH; [ring| |cbn in K; lia]. intros e He. apply N. right. exact He.
Qed.

Lemma from_barline_app : forall pre sum rest, exists sum',
  from_barline sum (pre ++ rest) = firstn (length pre) (from_barline sum (pre ++ rest)) ++ from_barline sum' rest /\
  length (firstn (length pre) (from_barline sum (pre ++ rest))) = length pre.
Proof.
  induction pre as [|[b d] pre IH]; intros sum rest.
  - exists sum. split; reflexivity.
  - cbn [app from_barline length]. rewrite firstn_cons.
    destruct (IH (if b then 0%Q else (sum + d)%Q) rest) as (s' & E & L).
    exists s'. split; [|cbn [length]; rewrite L; reflexivity]. cbn [app]. f_equal. exact E.
Qed.

Lemma to_barline_length l : length (fst (to_barline l)) = length l.
Proof. induction l as [|[b d] l IH]; cbn [to_barline]; [reflexivity|]. destruct (to_barline l). cbn in *. congruence. Qed.

Lemma to_barline_app : forall pre rest,
  skipn (length pre) (fst (to_barline (pre ++ rest))) = fst (to_barline rest).
Proof.
  induction pre as [|[b d] pre IH]; intros rest; [reflexivity|]. cbn [app to_barline length].
  specialize (IH rest). destruct (to_barline (pre ++ rest)) as [r s]. cbn [fst] in *. cbn [skipn]. exact IH.
Qed.

(** The sum the backward loop carries to the left of [rest]. *)
Definition closed (rest : list (bool * Q)) : Prop := match rest with [] => True | (b, _) :: _ => b = true end.

Lemma to_barline_carry : forall inside rest, no_bar inside -> closed rest ->
  (snd (to_barline (inside ++ rest)) == qsum (map snd inside))%Q.
Proof.
  induction inside as [|[b d] inside IH]; intros rest N C.
  - destruct rest as [|[b d] rest]; cbn [app to_barline]; [reflexivity|]. cbn in C. subst b.
    destruct (to_barline rest). reflexivity.
  - assert (B : b = false) by exact (N (b, d) (or_introl eq_refl)). subst b.
    specialize (IH rest (fun e He => N e (or_intror He)) C).
    cbn [app to_barline map snd qsum]. destruct (to_barline (inside ++ rest)) as [r s]. cbn [snd] in *. rewrite IH. ring.
Qed.

Lemma to_barline_inside : forall inside k rest, no_bar inside -> closed rest -> k < length inside ->
  (nth k (fst (to_barline (inside ++ rest))) (-1) == qsum (map snd (skipn k inside)))%Q.
Proof.
  induction inside as [|[b d] inside IH]; intros k rest N C K; [cbn in K; lia|].
  pose proof (fun e (He : In e inside) => N e (or_intror He)) as N'.
  destruct k as [|k].
  - pose proof (to_barline_carry inside rest N' C) as T.
    cbn [app to_barline skipn map snd qsum]. destruct (to_barline (inside ++ rest)) as [r s]. cbn [fst snd nth] in *.
    rewrite T. ring.
  - specialize (IH k rest N' C). cbn [app to_barline skipn]. destruct (to_barline (inside ++ rest)) as [r s].
    cbn [fst nth] in *. apply IH. cbn in K. lia.
Qed.

Lemma qsum_app a b : (qsum (a ++ b) == qsum a + qsum b)%Q.
Proof. induction a as [|x a IH]; cbn [app qsum]; [ring|rewrite IH; ring]. Qed.

(** ** Ticks *)
Lemma lcm_formula a b : (0 < a)%Z -> (0 < b)%Z -> (a * b / Z.gcd a b = Z.lcm a b)%Z.
Proof.
  intros A B. unfold Z.lcm. rewrite Z.abs_eq.
  - rewrite <- Z.divide_div_mul_exact; [reflexivity| |apply Z.gcd_divide_r].
    intros X. apply Z.gcd_eq_0 in X. lia.
  - apply Z.mul_nonneg_nonneg; [lia|]. apply Z.div_pos; [lia|].
    assert (Z.gcd a b <> 0)%Z by (intros X; apply Z.gcd_eq_0 in X; lia).
    pose proof (Z.gcd_nonneg a b). lia.
Qed.

Lemma lcm_pos a b : (0 < a -> 0 < b -> 0 < Z.lcm a b)%Z.
Proof.
  intros A B. pose proof (Z.lcm_nonneg a b). assert (Z.lcm a b <> 0)%Z; [|lia].
  intros X. apply Z.lcm_eq_0 in X. lia.
Qed.

Lemma getLcm_spec nums : Forall (fun n => 0 < n)%Z nums ->
  (0 < getLcm nums)%Z /\ (forall n, In n nums -> (n | getLcm nums)%Z) /\
  (forall m, (forall n, In n nums -> (n | m)%Z) -> (getLcm nums | m)%Z).
Proof.
  intros P. destruct nums as [|n ns]; [cbn; split; [lia|split; [intros n []|intros m _; apply Z.divide_1_l]]|].
  cbn [getLcm]. inversion P as [|? ? P1 P2]; subst. clear P.
  assert (G : forall ns a, (0 < a)%Z -> Forall (fun n => 0 < n)%Z ns ->
    let r := fold_left (fun out k => (out * k / Z.gcd out k)%Z) ns a in
    (0 < r)%Z /\ (a | r)%Z /\ (forall n, In n ns -> (n | r)%Z) /\
    (forall m, (a | m)%Z -> (forall n, In n ns -> (n | m)%Z) -> (r | m)%Z)).
  { clear. induction ns as [|k ns IH]; intros a A P; cbn [fold_left].
    - split; [exact A|]. split; [apply Z.divide_refl|]. split; [intros n []|auto].
    - inversion P as [|? ? P1 P2]; subst. rewrite lcm_formula by assumption.
      destruct (IH (Z.lcm a k) (lcm_pos _ _ A P1) P2) as (R1 & R2 & R3 & R4).
      split; [exact R1|]. split; [eapply Z.divide_trans; [apply Z.divide_lcm_l|exact R2]|]. split.
      + intros n [<-|Hn]; [eapply Z.divide_trans; [apply Z.divide_lcm_r|exact R2]|apply R3; exact Hn].
      + intros m Ha Hn. apply R4; [apply Z.lcm_least; [exact Ha|apply Hn; left; reflexivity]|].
        intros x Hx. apply Hn. right. exact Hx. }
  destruct (G ns n P1 P2) as (R1 & R2 & R3 & R4). split; [exact R1|]. split.
  - intros x [<-|Hx]; auto.
  - intros m Hm. apply R4; [apply Hm; left; reflexivity|intros x Hx; apply Hm; right; exact Hx].
Qed.

(** A duration of so many ticks per quarter is a whole number of ticks. *)
Definition whole_ticks (t : Z) (q : Q) : Prop := exists k : Z, (q * inject_Z t == inject_Z k)%Q.

Lemma whole_ticks_iff t q : whole_ticks t q <-> (Zpos (qden q) | t)%Z.
Proof.
  assert (E : whole_ticks t q <-> whole_ticks t (Qred q)).
  { unfold whole_ticks. split; intros (k & H); exists k; [rewrite Qred_correct|rewrite Qred_correct in H]; exact H. }
  rewrite E. clear E. unfold whole_ticks, qden.
  assert (G : Z.gcd (Qnum (Qred q)) (Zpos (Qden (Qred q))) = 1%Z).
  { apply Qcanon.Qred_identity2. apply Qcanon.Qred_involutive. }
  destruct (Qred q) as [n d]. cbn [Qden Qnum] in *. split.
  - intros (k & H). unfold Qeq in H. cbn in H. rewrite !Z.mul_1_r in H.
    rewrite Pos.mul_1_r in H.
    apply (Z.gauss _ n); [exists k; lia|]. rewrite Z.gcd_comm. exact G.
  - intros (k & ->). exists (n * k)%Z. unfold Qeq. cbn. rewrite !Pos.mul_1_r. ring.
Qed.

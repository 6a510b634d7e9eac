(** Paths of single predecessors; ticks. *)
From Verif Require Import PyStr PyStrProofs RecipModel LayoutModel TextModel SpineModel SpineProofs LinkProofs.
From Verif Require Import RhythmModel RhythmProofs RhythmProofs2 RhythmProofs3 RhythmProofs4.
From Coq Require Import QArith.
Local Close Scope Q_scope.

Theorem text_paths lines infos fin g starts durs :
  analyzeSpines lines = Some (infos, fin) -> analyzeLinks lines = Fine g -> no_added_spines lines ->
  (forall l u, In l lines -> In (S_ "*-") (tokens l) -> In u (tokens l) -> isDataToken u = false) ->
  let f := rhythm_view lines infos fin g in
  analyzeRhythm f = RhythmOk starts durs ->
  forall t l u, reached f (rhythmic_starts f) t -> path g t l u ->
    (0 <= rf_dur f u)%Q ->
    ((0 <= rf_dur f t)%Q -> (nth (fst u) starts (-1) == nth (fst t) starts (-1) + qsum (map (fun x => Qmax 0 (rf_dur f x)) l))%Q) /\
    (In t (rhythmic_starts f) -> (nth (fst u) starts (-1) == qsum (map (fun x => Qmax 0 (rf_dur f x)) l))%Q).
Proof.
  intros HS HL NA TD f H t l u R P D.
  destruct (text_clock lines infos fin g HS HL NA TD starts durs H) as (clock & C1 & C2 & C3). fold f in C1, C2, C3.
  assert (ST : forall t n, reached f (rhythmic_starts f) t -> In n (nextTokens g t) -> previousTokens g n = [t] ->
     (clock n == clock t + Qmax 0 (rf_dur f t))%Q).
  { intros a b Ra Hb Pb. destruct (C2 b) as (p & _ & Hp & E).
    - apply (reach_next f _ a); [exact Ra|exact Hb].
    - intros X. destruct (starts_known lines infos fin g HS NA) as (ln & n & x & A & B & C & DD).
      unfold rhythmic_starts in X. fold f in A. rewrite A, flat_map_some in X. apply filter_In in X. destruct X as [X _].
      apply in_map_iff in X. destruct X as (k & <- & _). apply (analyzeLinks_exact _ _ HL) in Hb.
      destruct Hb as (p' & q & links & (P1 & _ & P3 & _ & P5 & _) & _). cbn [fst] in P5.
      rewrite (DD _ _ P5 P1) in P3. discriminate.
    - pose proof (analyzeLinks_symmetric _ _ _ _ _ HL (fun a b => eq_refl) p b) as S1. rewrite Pb in S1.
      assert (In p [a]).
      { apply (count_occ_In ref_dec). rewrite <- S1. apply (count_occ_In ref_dec). exact Hp. }
      destruct H0 as [<-|[]]. exact E. }
  assert (RU : forall t l u, path g t l u -> reached f (rhythmic_starts f) t ->
     reached f (rhythmic_starts f) u /\ (clock u == clock t + qsum (map (fun x => Qmax 0 (rf_dur f x)) l))%Q).
  { clear t l u R P D. intros t l u P. induction P as [t|t n l u A B P IH]; intros R; cbn [map qsum]; [split; [exact R|ring]|].
    destruct (IH (reach_next f _ t n R A)) as [I1 I2]. split; [exact I1|]. rewrite I2, (ST t n R A B). ring. }
  destruct (RU t l u P R) as [U1 U2]. rewrite (C3 u U1 D). split.
  - intros Dt. rewrite (C3 t R Dt). exact U2.
  - intros I. rewrite U2, (C1 t I). ring.
Qed.

(** ** Ticks *)
Theorem tpq_least durs :
  (0 < tpq durs)%Z /\ (forall q, In q durs -> (0 < q)%Q -> whole_ticks (tpq durs) q) /\
  forall m, (0 < m)%Z -> (forall q, In q durs -> (0 < q)%Q -> whole_ticks m q) -> (tpq durs <= m)%Z.
Proof.
  set (denoms := filter (fun d => 1 <? d)%Z (map (fun q => Zpos (qden q)) (filter (Qlt_bool 0) durs))).
  assert (E : tpq durs = getLcm denoms) by (unfold tpq; fold denoms; destruct denoms; reflexivity).
  assert (P : Forall (fun n => 0 < n)%Z denoms).
  { apply Forall_forall. intros n Hn. apply filter_In in Hn. destruct Hn as [_ Hn]. lia. }
  destruct (getLcm_spec _ P) as (A & B & C). rewrite E. split; [exact A|].
  assert (IN : forall q, In q durs -> (0 < q)%Q -> qden q = 1%positive \/ In (Zpos (qden q)) denoms).
  { intros q Hq Pq. destruct (Pos.eq_dec (qden q) 1) as [->|N]; [left; reflexivity|]. right.
    apply filter_In. split; [|lia]. apply in_map_iff. exists q. split; [reflexivity|]. apply filter_In. split; [exact Hq|].
    apply Qlt_bool_true. exact Pq. }
  split.
  - intros q Hq Pq. apply whole_ticks_iff. destruct (IN q Hq Pq) as [->|I]; [apply Z.divide_1_l|apply B; exact I].
  - intros m M H. apply Z.divide_pos_le; [exact M|]. apply C. intros n Hn.
    apply filter_In in Hn. destruct Hn as [Hn _]. apply in_map_iff in Hn. destruct Hn as (q & <- & Hq).
    apply filter_In in Hq. destruct Hq as [Hq Pq]. apply Qlt_bool_true in Pq.
    apply whole_ticks_iff. apply H; assumption.
Qed.

(** ** Measures *)
Theorem measure_sums pre b d0 inside post :
  b = true -> no_bar inside -> closed post ->
  let l := pre ++ (b, d0) :: inside ++ post in
  let m := qsum (map snd inside) in
  (forall k, k < length inside ->
     (nth (S (length pre) + k) (fst (analyzeMeter l)) (-1) == qsum (map snd (firstn k inside)) /\
      nth (S (length pre) + k) (fst (analyzeMeter l)) (-1) + nth (S (length pre) + k) (snd (analyzeMeter l)) (-1) == m)%Q) /\
  (nth (length pre) (snd (analyzeMeter l)) (-1) == m + d0)%Q.
Proof.
  intros -> N C l m. unfold analyzeMeter. cbn [fst snd].
  destruct (from_barline_app pre 0 ((true, d0) :: inside ++ post)) as (s & F & FL). fold l in F, FL.
  pose proof (to_barline_app pre ((true, d0) :: inside ++ post)) as T. fold l in T.
  assert (TN : forall k, nth (length pre + k) (fst (to_barline l)) (-1)%Q = nth k (fst (to_barline ((true, d0) :: inside ++ post))) (-1)%Q).
  { intros k. rewrite <- T.
    assert (G : forall {A} (x : list A) n k d, nth (n + k) x d = nth k (skipn n x) d).
    { clear. intros A x n. revert x. induction n as [|n IH]; intros x k d; [reflexivity|].
      destruct x as [|a x]; [destruct k; reflexivity|]. cbn [Nat.add nth skipn]. apply IH. }
    apply G. }
  split.
  - intros k K.
    assert (FK : (nth (S (length pre) + k) (from_barline 0 l) (-1) == qsum (map snd (firstn k inside)))%Q).
    { rewrite F. rewrite app_nth2 by (rewrite FL; lia). rewrite FL. replace (S (length pre) + k - length pre) with (S k) by lia.
      cbn [from_barline nth]. rewrite from_barline_inside by assumption. ring. }
    assert (TK : (nth (S (length pre) + k) (fst (to_barline l)) (-1) == qsum (map snd (skipn k inside)))%Q).
    { replace (S (length pre) + k) with (length pre + S k) by lia. rewrite TN. cbn [to_barline].
      pose proof (to_barline_inside inside k post N C K) as X. destruct (to_barline (inside ++ post)) as [r s']. cbn [fst] in *. exact X. }
    split; [exact FK|]. rewrite FK, TK, <- qsum_app, <- map_app, firstn_skipn. reflexivity.
  - specialize (TN 0). rewrite Nat.add_0_r in TN. rewrite TN. cbn [to_barline].
    pose proof (to_barline_carry inside post N C) as X. destruct (to_barline (inside ++ post)) as [r s']. cbn [fst snd nth] in *.
    rewrite X. reflexivity.
Qed.

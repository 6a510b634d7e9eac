(** C150: a spanner of an MEI file that ends some measures later has its end in that measure,
    at the offset that is given. *)
From Coq Require Import List Ascii String NArith Bool Arith Lia QArith.
From Verif Require Import PyStr PyStrProofs MeiSpanEndModel.
Import ListNotations.
Local Close Scope Q_scope.

(** The ends on staff [n] that a list of spanners puts [k] measures further on. *)
Definition ends_after (n : str) (k : nat) (l : list spanEnd) : list (nat * Q) :=
  map (fun p => (e_span p, e_offset p))
      (filter (fun p => str_eqb (e_staff p) n && Nat.eqb (e_skip p) k) l).

(** The ends on staff [n] that belong in measure [j]: those of the spanners of measure [i]
    that end [j - i] measures later. *)
Definition ends_at (n : str) (l : list meas) (j : nat) : list (nat * Q) :=
  flat_map (fun i => match nth_error l i with
                     | Some m => ends_after n (j - i) (m_spans m)
                     | None => []
                     end) (seq 0 (S j)).

Lemma lookup_wait : forall n k x w,
  lookup n (wait k x w) = lookup n w ++ (if str_eqb k n then [x] else []).
Proof.
  intros n k x w. induction w as [|[a v] w IH]; cbn [wait lookup].
  - destruct (str_eqb k n); reflexivity.
  - destruct (str_eqb a k) eqn:E; cbn [lookup].
    + apply str_eqb_eq in E. subst a. destruct (str_eqb k n); [reflexivity|].
      rewrite app_nil_r. reflexivity.
    + destruct (str_eqb a n) eqn:F; [|exact IH].
      apply str_eqb_eq in F. subst a. rewrite str_eqb_sym, E. symmetry. apply app_nil_r.
Qed.

Lemma ends_after_cons : forall n k p l,
  ends_after n k (p :: l)
  = (if str_eqb (e_staff p) n && Nat.eqb (e_skip p) k then [(e_span p, e_offset p)] else [])
      ++ ends_after n k l.
Proof.
  intros n k p l. unfold ends_after. cbn [filter].
  destruct (str_eqb (e_staff p) n && Nat.eqb (e_skip p) k); reflexivity.
Qed.

Lemma ends_after_app : forall n k a b, ends_after n k (a ++ b) = ends_after n k a ++ ends_after n k b.
Proof. intros n k a b. unfold ends_after. rewrite filter_app, map_app. reflexivity. Qed.

Lemma due_own_spec : forall n l w w' still, due_own l w = (w', still) ->
  lookup n w' = lookup n w ++ ends_after n 0 l
  /\ (forall k, ends_after n (S k) still = ends_after n (S k) l)
  /\ (forall p, In p still -> e_skip p <> 0).
Proof.
  intros n. induction l as [|p l IH]; intros w w' still H; cbn [due_own] in H.
  - injection H as H1 H2. subst. split; [symmetry; apply app_nil_r|].
    split; [reflexivity|]. intros p [].
  - destruct (Nat.eqb (e_skip p) 0) eqn:E.
    + apply IH in H as [H1 [H2 H3]]. split; [|split; [|exact H3]].
      * rewrite H1, lookup_wait, ends_after_cons, E, andb_true_r, <- app_assoc. reflexivity.
      * intros k. rewrite ends_after_cons. apply Nat.eqb_eq in E. rewrite E.
        cbn [Nat.eqb]. rewrite andb_false_r. apply H2.
    + destruct (due_own l w) as [w1 s1] eqn:F. injection H as H1 H2. subst w' still.
      destruct (IH w w1 s1 F) as [I1 [I2 I3]]. split; [|split].
      * rewrite I1, ends_after_cons, E, andb_false_r. reflexivity.
      * intros k. rewrite !ends_after_cons, I2. reflexivity.
      * intros q [Hq|Hq]; [subst q; apply Nat.eqb_neq; exact E|apply I3; exact Hq].
Qed.

Lemma due_pending_spec : forall n l w w' still, (forall p, In p l -> e_skip p <> 0) ->
  due_pending l w = (w', still) ->
  lookup n w' = lookup n w ++ ends_after n 1 l
  /\ (forall k, ends_after n (S k) still = ends_after n (S (S k)) l)
  /\ (forall p, In p still -> e_skip p <> 0).
Proof.
  intros n. induction l as [|p l IH]; intros w w' still Z H; cbn [due_pending] in H.
  - injection H as H1 H2. subst. split; [symmetry; apply app_nil_r|].
    split; [reflexivity|]. intros p [].
  - cbv zeta in H.
    assert (Zp : e_skip p <> 0) by (apply Z; left; reflexivity).
    assert (Zl : forall q, In q l -> e_skip q <> 0) by (intros q Hq; apply Z; right; exact Hq).
    destruct (Nat.eqb (e_skip p - 1) 0) eqn:E.
    + apply IH in H as [H1 [H2 H3]]; [|exact Zl]. apply Nat.eqb_eq in E.
      assert (O : e_skip p = 1) by lia. split; [|split; [|exact H3]].
      * rewrite H1, lookup_wait, ends_after_cons, O. cbn [Nat.eqb].
        rewrite andb_true_r, <- app_assoc. reflexivity.
      * intros k. rewrite ends_after_cons, O. cbn [Nat.eqb]. rewrite andb_false_r. apply H2.
    + destruct (due_pending l w) as [w1 s1] eqn:F. injection H as H1 H2. subst w' still.
      apply Nat.eqb_neq in E.
      destruct (IH w w1 s1 Zl F) as [I1 [I2 I3]]. split; [|split].
      * rewrite I1, ends_after_cons.
        assert (O : Nat.eqb (e_skip p) 1 = false) by (apply Nat.eqb_neq; lia).
        rewrite O, andb_false_r. reflexivity.
      * intros k. rewrite !ends_after_cons, I2. cbn [e_staff e_span e_skip e_offset].
        assert (O : Nat.eqb (e_skip p - 1) (S k) = Nat.eqb (e_skip p) (S (S k))).
        { destruct (Nat.eqb_spec (e_skip p - 1) (S k)); destruct (Nat.eqb_spec (e_skip p) (S (S k)));
            try reflexivity; lia. }
        rewrite O. reflexivity.
      * intros q [Hq|Hq]; [subst q; exact E|apply I3; exact Hq].
Qed.

Lemma ends_from_spec : forall n l pend j m, (forall p, In p pend -> e_skip p <> 0) ->
  nth_error l j = Some m ->
  nth_error (ends_from n pend l) j
  = Some (if existsb (fun k => str_eqb k n) (m_staves m)
          then ends_after n (S j) pend ++ ends_at n l j else []).
Proof.
  intros n. induction l as [|x l IH]; intros pend j m Z H; [destruct j; discriminate H|].
  cbn [ends_from]. unfold ends_of_measure.
  destruct (due_pending pend []) as [w1 still] eqn:D.
  destruct (due_own (m_spans x) w1) as [w2 own] eqn:O.
  destruct (due_pending_spec n _ _ _ _ Z D) as [D1 [D2 D3]].
  destruct (due_own_spec n _ _ _ _ O) as [O1 [O2 O3]].
  destruct j as [|j]; cbn [nth_error] in H |- *.
  - injection H as H. subst x. do 2 f_equal.
    unfold ends_at. cbn [seq flat_map nth_error]. rewrite Nat.sub_0_r, app_nil_r, O1, D1.
    reflexivity.
  - rewrite (IH (still ++ own) j m); [| |exact H].
    2: { intros p Hp. apply in_app_or in Hp as [Hp|Hp]; [apply D3|apply O3]; exact Hp. }
    do 2 f_equal. rewrite ends_after_app, D2, O2, <- app_assoc. f_equal.
    unfold ends_at. change (seq 0 (S (S j))) with (0 :: seq 1 (S j)).
    cbn [flat_map nth_error]. rewrite Nat.sub_0_r. f_equal.
    rewrite <- seq_shift, !flat_map_concat_map, map_map. reflexivity.
Qed.

(** C150: in each measure that has the staff, the staff gets exactly the ends of the spanners
    that end in this measure: those of all earlier measures in their order, then those of
    this measure. *)
Theorem C150_ends_partial : forall n l j m,
  nth_error l j = Some m ->
  existsb (fun k => str_eqb k n) (m_staves m) = true ->
  nth_error (read_ends n l) j = Some (ends_at n l j).
Proof.
  intros n l j m H S. unfold read_ends.
  rewrite (ends_from_spec n l [] j m); [|intros p []|exact H].
  rewrite S. reflexivity.
Qed.
Print Assumptions C150_ends_partial.

(** So a spanner that begins in measure [i] has its end in measure [i + k], and in no other. *)
Theorem C150_one_end : forall n l i m p mj,
  nth_error l i = Some m -> In p (m_spans m) -> e_staff p = n ->
  (forall i' m' p', nth_error l i' = Some m' -> In p' (m_spans m') -> e_span p' = e_span p ->
     i' = i /\ p' = p) ->
  nth_error l (i + e_skip p) = Some mj ->
  existsb (fun k => str_eqb k n) (m_staves mj) = true ->
  forall j out, nth_error (read_ends n l) j = Some out ->
    (forall o, In (e_span p, o) out <-> j = i + e_skip p /\ o = e_offset p).
Proof.
  intros n l i m p mj Hi Hp Hs U Hj Sj j out Hout o.
  assert (L : length (read_ends n l) = length l).
  { unfold read_ends. generalize (@nil spanEnd). clear. induction l as [|x l IH]; intros q;
      [reflexivity|]. cbn [ends_from]. destruct (ends_of_measure n q x). cbn [length].
    rewrite IH. reflexivity. }
  assert (J : exists m', nth_error l j = Some m').
  { destruct (nth_error l j) as [m'|] eqn:E; [exists m'; reflexivity|].
    apply nth_error_None in E. rewrite <- L in E. apply nth_error_None in E. congruence. }
  destruct J as [m' Hm'].
  assert (In_at : forall o, In (e_span p, o) (ends_at n l j) <-> j = i + e_skip p /\ o = e_offset p).
  { intros o'. unfold ends_at. rewrite in_flat_map. split.
    - intros [i' [I1 I2]]. destruct (nth_error l i') as [m1|] eqn:E; [|destruct I2].
      unfold ends_after in I2. apply in_map_iff in I2 as [q [Q1 Q2]].
      apply filter_In in Q2 as [Q2 Q3]. apply andb_true_iff in Q3 as [_ Q3].
      apply Nat.eqb_eq in Q3. injection Q1 as Q4 Q5.
      destruct (U i' m1 q E Q2 Q4) as [U1 U2]. subst i' q. apply in_seq in I1.
      split; [lia|symmetry; exact Q5].
    - intros [J1 J2]. exists i. split; [apply in_seq; lia|]. rewrite Hi.
      unfold ends_after. apply in_map_iff. exists p. split; [rewrite J2; reflexivity|].
      apply filter_In. split; [exact Hp|]. rewrite Hs, str_eqb_refl.
      apply Nat.eqb_eq. lia. }
  unfold read_ends in Hout. rewrite (ends_from_spec n l [] j m') in Hout;
    [|intros q []|exact Hm'].
  injection Hout as Hout. subst out.
  change (ends_after n (S j) []) with (@nil (nat * Q)). cbn [app].
  destruct (existsb (fun k => str_eqb k n) (m_staves m')) eqn:E; [apply In_at|].
  split; [intros []|]. intros [J1 _]. subst j. congruence.
Qed.
Print Assumptions C150_one_end.

Definition t1 : str := S_ "1".
Definition t2 : str := S_ "2".

Example C150_nonvacuous :
  let l := [mkMeas [t1; t2] [mkEnd t1 10 2 (1 # 2); mkEnd t2 11 0 3; mkEnd t1 12 1 0];
            mkMeas [t1; t2] [mkEnd t1 13 1 2];
            mkMeas [t1] [mkEnd t1 14 0 1; mkEnd t1 15 7 1]] in
  read_ends t1 l = [[]; [(12, 0%Q)]; [(10, (1 # 2)%Q); (13, 2%Q); (14, 1%Q)]]
  /\ read_ends t2 l = [[(11, 3%Q)]; []; []].
Proof. split; vm_compute; reflexivity. Qed.

(** In a measure without the staff, which the reader fills with rests, the end is lost. *)
Theorem C150_staff_missing_refuted : exists l,
  ends_at t2 l 1 = [(10, 1%Q)] /\ read_ends t2 l = [[]; []; []].
Proof.
  exists [mkMeas [t1; t2] [mkEnd t2 10 1 1]; mkMeas [t1] []; mkMeas [t1; t2] []].
  split; vm_compute; reflexivity.
Qed.
Print Assumptions C150_staff_missing_refuted.

(** Lines of a measure (C36, C75, C76, C77), the first measure (C37), the events of
    a measure (C45), hidden rests (C46) and the walk through all staves (C74). *)
From Coq Require Import Lia QArith Sorted Permutation.
Local Close Scope Q_scope.
From Verif Require Import PyStr RecipProofs DurationModel DurationProofs MeasureModel MeasureProofs MeasureProofs2 MeasureProofs3.

Definition v0 : place := Voice 0 0 0.
Definition line (ts : Q) (ty : slicetype) (tok : str) : slice := mkSlice ts ty 1 [(v0, tok)].

(** ** C36 *)

(** C36.  The full statement is that any additions to an empty measure give lines in
    time order.  A note between a note and a later clef is put after the clef. *)
Theorem C36_refuted : exists h l, add_all 0 4 h [] = Some l /\ ~ in_time_order l.
Proof.
  exists [Data 0 1 v0 (S_ "4c"); OfType false Clefs 2 1 v0 (S_ "*clefF4"); Data 1 1 v0 (S_ "4d")].
  eexists. split; [vm_compute; reflexivity|]. intros H.
  specialize (H [line 0 Notes (S_ "4c")] (line 2 Clefs (S_ "*clefF4")) [] (line 1 Notes (S_ "4d")) [] eq_refl).
  vm_compute in H. apply H. reflexivity.
Qed.
Print Assumptions C36_refuted.

(** A grace note between a note and a clef is put at the beginning. *)
Theorem C36_grace_refuted : exists h l, add_all 0 4 h [] = Some l /\ ~ in_time_order l.
Proof.
  exists [Data 0 1 v0 (S_ "4c"); OfType false Clefs 1 1 v0 (S_ "*clefF4"); Grace 1 1 1 v0 (S_ "qd")].
  eexists. split; [vm_compute; reflexivity|]. intros H.
  specialize (H [] (line 1 GraceNotes (S_ "qd")) [] (line 0 Notes (S_ "4c")) [line 1 Clefs (S_ "*clefF4")] eq_refl).
  vm_compute in H. apply H. reflexivity.
Qed.
Print Assumptions C36_grace_refuted.

(** An instrument name at the time of a clef is put at the beginning. *)
Theorem C36_label_refuted : exists h l, add_all 0 4 h [] = Some l /\ ~ in_time_order l.
Proof.
  exists [Data 0 1 v0 (S_ "4c"); OfType false Clefs 1 1 v0 (S_ "*clefF4"); Label Labels 1 1 v0 (S_ "*I""Oboe")].
  eexists. split; [vm_compute; reflexivity|]. intros H.
  specialize (H [] (line 1 Labels (S_ "*I""Oboe")) [] (line 0 Notes (S_ "4c")) [line 1 Clefs (S_ "*clefF4")] eq_refl).
  vm_compute in H. apply H. reflexivity.
Qed.
Print Assumptions C36_label_refuted.

(** Missing from the full statement: additions that are not welcome (first theorem),
    or not in the order of their times (second theorem). *)
Theorem C36_partial mts mend h l :
  all_fit mts mend h [] -> add_all mts mend h [] = Some l -> in_time_order l.
Proof. apply history_order. intros a x b y c E. destruct a; discriminate. Qed.
Print Assumptions C36_partial.

Theorem C36_rising_partial mts mend h from l :
  rising from h -> add_all mts mend h [] = Some l -> in_time_order l.
Proof. apply rising_order; [intros a x b y c E; destruct a; discriminate|intros s []]. Qed.
Print Assumptions C36_rising_partial.

(** For one note the condition is exact. *)
Theorem C36_note_exact_partial ts n p tok l l' :
  in_time_order l -> addDataToken ts n p tok l = Some l' -> (in_time_order l' <-> data_fits ts l).
Proof. apply data_order. Qed.
Print Assumptions C36_note_exact_partial.

Example C36_nonvacuous :
  let h := [Data 0 1 v0 (S_ "4c"); Data 1 1 v0 (S_ "4d"); Data 2 1 v0 (S_ "4e")] in
  rising 0 h /\ all_fit 0 4 [Data 1 1 v0 (S_ "4d"); Data 0 1 v0 (S_ "4c")] []
  /\ option_map (map (fun s => Qred (sl_ts s))) (add_all 0 4 [Data 1 1 v0 (S_ "4d"); Data 0 1 v0 (S_ "4c")] [])
     = Some [0%Q; 1%Q].
Proof.
  split; [|split].
  - cbn. exists 0%Q. split; [reflexivity|]. split; [discriminate|]. exists 1%Q. split; [reflexivity|]. split; [discriminate|].
    exists 2%Q. split; [reflexivity|]. split; [discriminate|exact I].
  - cbn. split; [right; intros a s b E; destruct a; discriminate|]. intros l' E. injection E as <-. split; [|auto].
    right. intros a s b E _ _. destruct a as [|x a]; [|destruct a; discriminate].
    injection E as <- <-. left. reflexivity.
  - vm_compute. reflexivity.
Qed.

(** ** C75 *)

Lemma label_placed ty ts n p tok l l' : addLabelToken ty ts n p tok l = Some l' -> placed ts ty p tok l l'.
Proof.
  intros H. unfold addLabelToken in H. eapply put_placed; [exact H| |]; unfold label_spot.
  - intros k. destruct (past_end ts l); [intros E; injection E as <-; lia|].
    destruct (label_scan ty ts l) as [o|] eqn:E.
    + intros ->. exfalso. exact (label_scan_insert _ _ _ _ E).
    + intros X. injection X as <-. lia.
  - intros k a s b. destruct (past_end ts l); [discriminate|].
    destruct (label_scan ty ts l) as [o|] eqn:E; [|discriminate]. intros -> EL LA. clear H. revert k a l E EL LA.
    intros k a. revert k. induction a as [|x a IH]; intros k l E -> LA; cbn in E.
    + destruct (Qeq_bool (sl_ts s) ts && is_type ty s) eqn:Q.
      * apply andb_true_iff in Q. destruct Q as (Q & Y). apply is_type_eq in Y. qb. auto.
      * apply later_reuse in E. destruct E as (j & -> & _). discriminate.
    + destruct (Qeq_bool (sl_ts x) ts && is_type ty x); [injection E as <-; discriminate|].
      apply later_reuse in E. destruct E as (j & -> & E). injection LA as LA. exact (IH j _ E eq_refl LA).
Qed.

(** C75.  The full statement is that a token added to a measure stands on a line of its
    own time and kind, and nothing else changes.  A grace note after a line of grace
    notes replaces the token of that earlier line. *)
Theorem C75_refuted : exists ts l l', addGraceToken ts 1 1 v0 (S_ "qd") l = Some l'
  /\ ~ placed ts GraceNotes v0 (S_ "qd") l l'
  /\ forall s, In s l' -> token_at v0 s <> Some (S_ "qc").
Proof.
  exists 1%Q, [line 0 GraceNotes (S_ "qc")]. eexists. split; [vm_compute; reflexivity|]. split.
  - intros [(a & s & b & E & E' & _)|(a & s & s' & b & E & _ & T & _)].
    + apply (f_equal (@length slice)) in E, E'. rewrite app_length in E, E'. cbn in E, E'. lia.
    + destruct a as [|x a]; [|destruct a; discriminate]. injection E as <- <-. vm_compute in T. discriminate.
  - intros s [<-|[]]. vm_compute. discriminate.
Qed.
Print Assumptions C75_refuted.

(** Missing: grace notes. *)
Theorem C75_partial mts mend a l l' ts ty p tok :
  match a with
  | Data t _ q k => t = ts /\ ty = Notes /\ q = p /\ k = tok
  | OfType _ y t _ q k => t = ts /\ y = ty /\ q = p /\ k = tok
  | Label y t _ q k => t = ts /\ y = ty /\ q = p /\ k = tok
  | _ => False
  end -> add mts mend a l = Some l' -> placed ts ty p tok l l'.
Proof.
  intros A H. destruct a; try contradiction; destruct A as (-> & -> & -> & ->); cbn in H.
  - exact (data_spot_placed _ _ _ _ _ _ H).
  - exact (type_spot_placed _ _ _ _ _ _ _ _ H).
  - exact (label_placed _ _ _ _ _ _ _ H).
Qed.
Print Assumptions C75_partial.

(** Global comments and references. *)
Theorem C75_global_partial ty tok ts l : in_time_order l ->
  (exists s, In s (addGlobal ty tok ts l) /\ (sl_ts s == ts)%Q /\ sl_type s = ty /\ token_at v0 s = Some tok)
  /\ (addGlobal ty tok ts l = l \/ exists a s b, l = a ++ b /\ addGlobal ty tok ts l = a ++ s :: b).
Proof. apply global_there. Qed.
Print Assumptions C75_global_partial.

(** At most one line of notes for each time. *)
Theorem C75_one_line_partial ts n p tok l l' : in_time_order l -> one_line_per_time l ->
  addDataToken ts n p tok l = Some l' -> one_line_per_time l'.
Proof. apply data_one_line. Qed.
Print Assumptions C75_one_line_partial.

Example C75_nonvacuous :
  addDataToken 1 2 (Voice 1 0 0) (S_ "4d") [line 0 Notes (S_ "4c"); mkSlice 1 Notes 2 [(v0, S_ "4e")]]
  = Some [line 0 Notes (S_ "4c"); mkSlice 1 Notes 2 [(Voice 1 0 0, S_ "4d"); (v0, S_ "4e")]]
  /\ option_map (map (fun s => Qred (sl_ts s))) (addTokenOfSliceType false Clefs 1 1 v0 (S_ "*clefF4") [line 0 Notes (S_ "4c"); line 2 Notes (S_ "4e")])
  = Some [0%Q; 1%Q; 2%Q].
Proof. split; vm_compute; reflexivity. Qed.

(** ** C76 *)

(** C76.  The full statement is that a layout comment for a line is found directly before
    that line.  If the line is the first one and the last line has layout comments, it is put
    there, after the line. *)
Theorem C76_refuted : exists l l' owner, nth_error l 0 = Some owner
  /\ addBefore 4 Layouts (S_ "!") (Some 0) v0 (S_ "!LO:N:vis=4") l = Some l'
  /\ ~ (exists a s b, l' = a ++ s :: owner :: b /\ sl_type s = Layouts /\ token_at v0 s = Some (S_ "!LO:N:vis=4")).
Proof.
  exists [line 0 Notes (S_ "4c"); mkSlice 4 Layouts 1 []]. eexists. eexists. split; [reflexivity|].
  split; [vm_compute; reflexivity|]. intros (a & s & b & E & T & _).
  destruct a as [|x [|y a]].
  - injection E as <- _ _. discriminate.
  - discriminate.
  - apply (f_equal (@length slice)) in E. cbn in E. rewrite app_length in E. cbn in E. lia.
Qed.
Print Assumptions C76_refuted.

(** Missing: a first line in a measure that ends with a line of this kind. *)
Theorem C76_partial mend ty null i p tok l l' owner :
  nth_error l i = Some owner ->
  (i = 0 -> forall a s, l = a ++ [s] -> sl_type s <> ty) ->
  addBefore mend ty null (Some i) p tok l = Some l' ->
  exists a s b, l' = a ++ s :: owner :: b /\ sl_type s = ty /\ token_at p s = Some tok
    /\ (l = a ++ owner :: b \/ exists s0, l = a ++ s0 :: owner :: b /\ sl_ts s0 = sl_ts s
        /\ (token_at p s0 = None \/ token_at p s0 = Some null) /\ forall q, q <> p -> token_at q s = token_at q s0).
Proof. apply before_line. Qed.
Print Assumptions C76_partial.

Example C76_nonvacuous :
  let l := [line 0 Notes (S_ "4c"); line 1 Notes (S_ "4d")] in
  (forall a s, l = a ++ [s] -> sl_type s <> Layouts) /\
  addBefore 4 Layouts (S_ "!") (Some 1) v0 (S_ "!LO:N:vis=4") l
  = Some [line 0 Notes (S_ "4c"); line 1 Layouts (S_ "!LO:N:vis=4"); line 1 Notes (S_ "4d")].
Proof.
  split; [|vm_compute; reflexivity]. intros a s E. destruct a as [|x [|y a]]; try discriminate; [injection E as _ <-; discriminate|].
  destruct a; discriminate.
Qed.

(** ** C77 *)

(** C77.  The full statement is that octave and pedal marks added together before a line stand
    in the order given.  Two marks before a line stand in the opposite order. *)
Theorem C77_refuted : exists toks l l',
  addOttavaOrPedalTokensBefore 4 (Some 0) 0 0 toks l = Some l'
  /\ ~ exists a lines b, l' = a ++ lines ++ b /\ Forall2 (mark_line v0 0%Q) toks lines.
Proof.
  exists [S_ "*X8va"; S_ "*8va"], [line 0 Notes (S_ "4c")]. eexists. split; [vm_compute; reflexivity|].
  intros (a & lines & b & E & F). inversion F as [|? x ? lx X F2]; subst. inversion F2 as [|? y ? ly Y F3]; subst. inversion F3; subst.
  destruct X as (_ & _ & X). destruct Y as (_ & _ & Y).
  destruct a as [|a0 [|a1 a]].
  - injection E as <- <- _. discriminate.
  - injection E as _ <- <- _. discriminate.
  - apply (f_equal (@length slice)) in E. cbn in E. rewrite app_length in E. cbn in E. lia.
Qed.
Print Assumptions C77_refuted.

(** What happens: all marks are there, on lines of their own at the time of the line, directly
    before it, and in the opposite order. *)
Theorem C77_reverse_partial mend i part staff toks l l' owner :
  nth_error l i = Some owner -> addOttavaOrPedalTokensBefore mend (Some i) part staff toks l = Some l' ->
  exists a lines b, l = a ++ owner :: b /\ length a = i /\ l' = a ++ lines ++ owner :: b
    /\ Forall2 (mark_line (Voice part staff 0) (sl_ts owner)) (rev toks) lines.
Proof.
  intros N H. unfold addOttavaOrPedalTokensBefore in H. destruct l as [|x l0] eqn:EL; [destruct i; discriminate|].
  rewrite <- EL in *. rewrite N in H. apply nth_error_split in N. destruct N as (a & b & E & L).
  rewrite E, <- L in H.
  assert (H' : ottava_loop (length a) owner (Voice part staff 0) toks (a ++ owner :: b) = Some l') by (destruct toks; exact H).
  clear H. rename H' into H. destruct (ottava_loop_spec _ _ _ _ _ _ H) as (lines & -> & F).
  exists a, lines, b. auto.
Qed.
Print Assumptions C77_reverse_partial.

(** One mark, or marks at the end of the measure, are as given. *)
Theorem C77_partial mend part staff toks l l' :
  l <> [] -> addOttavaOrPedalTokensBefore mend None part staff toks l = Some l' ->
  exists lines, l' = l ++ lines /\ Forall2 (mark_line (Voice part staff 0) mend) toks lines.
Proof.
  intros N H. unfold addOttavaOrPedalTokensBefore in H. destruct l as [|x l0]; [contradiction|].
  apply (ottava_end_spec _ _ _ _ _). destruct toks; exact H.
Qed.
Print Assumptions C77_partial.

Example C77_nonvacuous :
  option_map (map (fun s => (sl_ts s, token_at v0 s)))
    (addOttavaOrPedalTokensBefore 4 None 0 0 [S_ "*X8va"; S_ "*Xped"] [line 0 Notes (S_ "4c")])
  = Some [(0%Q, Some (S_ "4c")); (4%Q, Some (S_ "*X8va")); (4%Q, Some (S_ "*Xped"))].
Proof. vm_compute. reflexivity. Qed.

(** ** C37 *)

(** [l] is made of [a] and [b], each in its order. *)
Inductive interleaved {A} : list A -> list A -> list A -> Prop :=
| int_nil : interleaved [] [] []
| int_left : forall x a b l, interleaved a b l -> interleaved (x :: a) b (x :: l)
| int_right : forall x a b l, interleaved a b l -> interleaved a (x :: b) (x :: l).
(** [out] is what [P] holds for, in the order of [l]. *)
Definition selects (P : slice -> Prop) (l out : list slice) : Prop :=
  exists others, interleaved out others l /\ Forall P out /\ Forall (fun s => ~ P s) others.

Lemma filter_selects f (P : slice -> Prop) l : (forall s, f s = true <-> P s) -> selects P l (filter f l).
Proof.
  intros E. induction l as [|s l (o & I & F & G)]; [exists []; repeat constructor|]. cbn.
  destruct (f s) eqn:Q.
  - exists o. split; [constructor; exact I|]. split; [constructor; [apply E; exact Q|exact F]|exact G].
  - exists (s :: o). split; [constructor; exact I|]. split; [exact F|]. constructor; [|exact G].
    intros X. apply E in X. congruence.
Qed.

Lemma not_invalid_iff s : not_invalid s = true <-> valid s.
Proof.
  unfold not_invalid, valid. rewrite negb_true_iff. split; intros H.
  - intros X. apply is_type_eq in X. congruence.
  - destruct (is_type Invalid s) eqn:E; [apply is_type_eq in E; contradiction|reflexivity].
Qed.
Lemma kept_iff s : kept s = true <-> valid s /\ ~ rehearsal s.
Proof.
  unfold kept. rewrite andb_true_iff, not_invalid_iff, negb_true_iff. split; intros (A & B); split; auto.
  - intros X. apply is_rehearsal_iff in X. congruence.
  - destruct (is_rehearsal s) eqn:E; [apply is_rehearsal_iff in E; contradiction|reflexivity].
Qed.
Lemma kept_marks l : Permutation (filter kept l ++ filter (fun s => is_rehearsal s) l) (filter not_invalid l).
Proof.
  induction l as [|s l IH]; [constructor|]. cbn [filter]. unfold kept at 1. destruct (not_invalid s) eqn:N; cbn [andb].
  - destruct (is_rehearsal s); cbn [negb app]; [|constructor; exact IH].
    eapply Permutation_trans; [symmetry; apply Permutation_middle|]. constructor. exact IH.
  - destruct (is_rehearsal s) eqn:R; [|exact IH]. exfalso. apply is_rehearsal_iff in R. destruct R as (R & _).
    assert (V : valid s) by (unfold valid; congruence). apply not_invalid_iff in V. congruence.
Qed.

(** C37.  The full statement is that every valid line of the first measure is written once.
    Without a line of notes the barline is lost. *)
Theorem C37_refuted : exists l lines, selects valid l lines
  /\ ~ Permutation (transferTokens 4 true l) lines /\ In (line 0 Measures (S_ "=1")) l
  /\ ~ In (line 0 Measures (S_ "=1")) (transferTokens 4 true l).
Proof.
  exists [line 0 Measures (S_ "=1"); line 0 Clefs (S_ "*clefG2")], [line 0 Measures (S_ "=1"); line 0 Clefs (S_ "*clefG2")].
  split; [|split; [|split]].
  - exists []. split; [repeat constructor|]. split; [repeat constructor; discriminate|constructor].
  - intros P. apply Permutation_length in P. vm_compute in P. discriminate.
  - left. reflexivity.
  - vm_compute. intros [H|[]]. discriminate.
Qed.
Print Assumptions C37_refuted.

(** Without a barline before the music the rehearsal marks are lost. *)
Theorem C37_marks_refuted : exists l lines, selects valid l lines
  /\ ~ Permutation (transferTokens 4 true l) lines /\ (exists s, In s l /\ rehearsal s)
  /\ forall s, In s (transferTokens 4 true l) -> ~ rehearsal s.
Proof.
  exists [line 0 GlobalLayouts (S_ "!!LO:REH:t=A"); line 0 Notes (S_ "4c"); line 4 Measures (S_ "=2")],
    [line 0 GlobalLayouts (S_ "!!LO:REH:t=A"); line 0 Notes (S_ "4c"); line 4 Measures (S_ "=2")].
  split; [|split; [|split]].
  - exists []. split; [repeat constructor|]. split; [repeat constructor; discriminate|constructor].
  - intros P. apply Permutation_length in P. vm_compute in P. discriminate.
  - eexists. split; [left; reflexivity|]. split; [reflexivity|]. exists (S_ ":t=A"). reflexivity.
  - intros s I R. apply is_rehearsal_iff in R. vm_compute in I. destruct I as [<-|[<-|[]]]; vm_compute in R; discriminate.
Qed.
Print Assumptions C37_marks_refuted.

(** Missing: a first measure without music, or with rehearsal marks but no barline before it. *)
Theorem C37_partial mdur pre t post :
  ~ (mdur == 0)%Q -> starts_music t -> (forall s, In s pre -> ~ starts_music s) ->
  (exists b, In b pre /\ sl_type b = Measures) \/ (forall s, In s pre -> ~ rehearsal s) ->
  exists lines, selects valid (pre ++ t :: post) lines
    /\ Permutation (transferTokens mdur true (pre ++ t :: post)) lines
    /\ exists bar p others marks post',
         transferTokens mdur true (pre ++ t :: post) = others ++ marks ++ bar ++ t :: post'
         /\ selects valid post post'
         /\ ((bar = [] /\ p = pre /\ forall s, In s pre -> sl_type s <> Measures)
             \/ exists b p1 p2, bar = [b] /\ pre = p1 ++ b :: p2 /\ p = p1 ++ p2
                  /\ sl_type b = Measures /\ forall s, In s p1 -> sl_type s <> Measures)
         /\ selects rehearsal p marks
         /\ selects (fun s => valid s /\ ~ rehearsal s) p others.
Proof.
  intros D T N W. unfold transferTokens. apply qeq_false in D. rewrite D. cbn [negb andb].
  exists (filter not_invalid (pre ++ t :: post)). split; [apply filter_selects; apply not_invalid_iff|].
  assert (N' : forall s, In s pre -> is_trigger s = false).
  { intros s I. destruct (is_trigger s) eqn:E; [|reflexivity]. apply is_trigger_iff in E. destruct (N s I E). }
  destruct (loop_pre pre None [] (t :: post) N') as (bar & held & others & E & H & O). rewrite E.
  rewrite loop_trigger by (apply is_trigger_iff; exact T). cbn [app].
  assert (TI : not_invalid t = true).
  { apply not_invalid_iff. unfold valid. unfold starts_music in T. intuition congruence. }
  rewrite filter_app. cbn [filter]. rewrite TI.
  destruct bar as [b|].
  - destruct O as (p1 & p2 & EP & TB & NB & ->).
    assert (HP : held = filter (fun s => is_rehearsal s) (p1 ++ p2)).
    { rewrite H, EP, !filter_app. cbn [filter].
      assert (R : is_rehearsal b = false) by (unfold is_rehearsal, is_type; rewrite TB; reflexivity). rewrite R. reflexivity. }
    split.
    + rewrite <- app_assoc. cbn [app]. eapply Permutation_trans.
      { rewrite app_assoc. apply Permutation_app_tail. rewrite HP. apply kept_marks. }
      rewrite EP, !filter_app. cbn [filter].
      assert (BI : not_invalid b = true) by (apply not_invalid_iff; unfold valid; congruence).
      rewrite BI, <- !app_assoc. apply Permutation_app_head. cbn [app].
      symmetry. apply Permutation_middle.
    + exists [b], (p1 ++ p2), (filter kept (p1 ++ p2)), held, (filter not_invalid post).
      split; [rewrite <- !app_assoc; reflexivity|]. split; [apply filter_selects; apply not_invalid_iff|].
      split; [right; exists b, p1, p2; auto|].
      split; [rewrite HP; apply filter_selects; apply is_rehearsal_iff|apply filter_selects; apply kept_iff].
  - destruct O as (NB & ->).
    assert (HN : held = []).
    { rewrite H. destruct W as [(b & I & TB)|W]; [destruct (NB b I TB)|].
      clear - W. induction pre as [|s pre IH]; [reflexivity|]. cbn.
      destruct (is_rehearsal s) eqn:R; [apply is_rehearsal_iff in R; destruct (W s); [left; reflexivity|exact R]|].
      apply IH. intros x I. apply W. right. exact I. }
    cbn [app]. pose proof (kept_marks pre) as K. rewrite <- H, HN, app_nil_r in K. split.
    + apply Permutation_app_tail. exact K.
    + exists [], pre, (filter kept pre), [], (filter not_invalid post).
      split; [reflexivity|]. split; [apply filter_selects; apply not_invalid_iff|]. split; [left; auto|].
      split; [|apply filter_selects; apply kept_iff]. rewrite <- HN, H. apply filter_selects; apply is_rehearsal_iff.
Qed.
Print Assumptions C37_partial.

(** Any other measure: exactly the valid lines in their order. *)
Theorem C37_other_measures mdur firstBar l : firstBar = false \/ (mdur == 0)%Q ->
  selects valid l (transferTokens mdur firstBar l).
Proof.
  intros H. unfold transferTokens.
  assert (E : firstBar && negb (Qeq_bool mdur 0) = false).
  { destruct H as [->|H]; [reflexivity|]. apply qeq_iff in H. rewrite H. apply andb_false_r. }
  rewrite E. apply filter_selects. apply not_invalid_iff.
Qed.
Print Assumptions C37_other_measures.

Example C37_nonvacuous :
  let l := [line 0 Measures (S_ "=1"); line 0 GlobalLayouts (S_ "!!LO:REH:t=A"); line 0 Clefs (S_ "*clefG2");
            line 0 Notes (S_ "4c"); line 4 Measures (S_ "=2")] in
  map (token_at v0) (transferTokens 4 true l)
  = map Some [S_ "*clefG2"; S_ "!!LO:REH:t=A"; S_ "=1"; S_ "4c"; S_ "=2"].
Proof. vm_compute. reflexivity. Qed.

(** ** C45 *)

Definition at_start (t : Q) (e : event) : Prop := (ev_start e == t)%Q.
(** Whether an event takes time, or is the end of a hairpin. *)
Definition lasting (e : event) : Prop := ~ (ev_dur e == 0)%Q \/ ev_wedge e = true.
Definition picks (P : event -> Prop) (l out : list event) : Prop :=
  exists others, interleaved out others l /\ Forall P out /\ Forall (fun e => ~ P e) others.

Lemma filter_picks f (P : event -> Prop) l : (forall s, f s = true <-> P s) -> picks P l (filter f l).
Proof.
  intros E. induction l as [|s l (o & I & F & G)]; [exists []; repeat constructor|]. cbn.
  destruct (f s) eqn:Q.
  - exists o. split; [constructor; exact I|]. split; [constructor; [apply E; exact Q|exact F]|exact G].
  - exists (s :: o). split; [constructor; exact I|]. split; [exact F|]. constructor; [|exact G].
    intros X. apply E in X. congruence.
Qed.
Lemma has_length_iff e : has_length e = true <-> lasting e.
Proof.
  unfold has_length, lasting. rewrite orb_true_iff, negb_true_iff, qeq_false. reflexivity.
Qed.

(** C45. *)
Theorem C45_sorted_events events :
  StronglySorted Qlt (map bin_time (sortEvents events))
  /\ (forall e, In e events -> exists b, In b (sortEvents events) /\ at_start (bin_time b) e)
  /\ (forall b, In b (sortEvents events) ->
        (exists e, In e events /\ bin_time b = ev_start e)
        /\ picks (fun e => at_start (bin_time b) e /\ ~ lasting e) events (bin_zero b)
        /\ picks (fun e => at_start (bin_time b) e /\ lasting e) events (bin_nonzero b)).
Proof.
  destruct (sortEvents_spec events) as (times & A & B & C & ->).
  assert (M : map bin_time (map (filled events) times) = times).
  { rewrite map_map. rewrite <- (map_id times) at 2. apply map_ext. reflexivity. }
  rewrite M. split; [exact A|]. split.
  - intros e I. destruct (C e I) as (t & J & Q). exists (filled events t). split; [apply in_map; exact J|]. unfold at_start. cbn. symmetry. exact Q.
  - intros b I. apply in_map_iff in I. destruct I as (t & <- & J). split; [destruct (B t J) as (e & K & E); exists e; auto|].
    cbn. split; apply filter_picks; intros e; unfold zero_at, nonzero_at, at_time, at_start; rewrite andb_true_iff, qeq_iff.
    + rewrite negb_true_iff, <- has_length_iff. destruct (has_length e); intuition congruence.
    + rewrite has_length_iff. reflexivity.
Qed.
Print Assumptions C45_sorted_events.

Example C45_nonvacuous :
  let e i s d := mkEvent i s d false in
  map (fun b => (bin_time b, map ev_id (bin_zero b), map ev_id (bin_nonzero b)))
      (sortEvents [e 1 1%Q 1%Q; e 2 0%Q 1%Q; e 3 1%Q 0%Q; e 4 0%Q 1%Q; mkEvent 5 0 0 true])
  = [(0%Q, [], [2; 4; 5]); (1%Q, [3], [1])].
Proof. vm_compute. reflexivity. Qed.

(** ** C46 *)

(** C46.  The full statement is that hidden rests follow one another up to the element.  Five
    quarters before a quarter become a whole and a quarter rest, both at the beginning. *)
Theorem C46_refuted : exists out,
  parseEventsIn 0 6 [mkElement 5 1 false] 0 0 = Some out
  /\ out = [HiddenRest 0 4; HiddenRest 0 1; Element 5 (mkElement 5 1 false)]
  /\ ~ exists t, tiles 0 out t.
Proof.
  eexists. split; [vm_compute; reflexivity|]. split; [reflexivity|]. intros (t & H).
  inversion H; subst. match goal with X : tiles _ _ _ |- _ => inversion X; subst; clear X end.
  match goal with X : (_ == _)%Q |- _ => vm_compute in X; discriminate end.
Qed.
Print Assumptions C46_refuted.

(** Missing: gaps that need more than one rest. *)
Theorem C46_partial m d els es ee : (0 <= es)%Q -> in_turn es els ->
  exists out ends, parseEventsIn m d els es ee = Some (out ++ ends)
    /\ tiles m out (m + last_end es els)%Q
    /\ ((0 < ee)%Q -> tiles (m + d - ee)%Q ends (m + d)%Q) /\ ((ee <= 0)%Q -> ends = []).
Proof. apply parse_tiles. Qed.
Print Assumptions C46_partial.

(** In any gap the rests have together the length of the gap, and all begin where it begins. *)
Theorem C46_total_partial cur start rests : (cur < start)%Q -> gap_rests cur start = Some rests ->
  (rest_total rests == start - cur)%Q
  /\ forall x, In x rests -> exists s d, x = HiddenRest s d /\ (0 < d)%Q /\ (s == cur)%Q.
Proof. apply gap_total. Qed.
Print Assumptions C46_total_partial.

(** The elements are kept, each at its own time. *)
Theorem C46_elements_partial m d els es ee out : parseEventsIn m d els es ee = Some out ->
  elements_of out = map (fun e => (m + el_offset e, e)%Q) (filter (fun e => negb (el_absorbed e)) els).
Proof. apply parse_elements. Qed.
Print Assumptions C46_elements_partial.

Example C46_nonvacuous :
  in_turn 1 [mkElement 1 1 false; mkElement (7#2) (1#2) false]
  /\ option_map (map (fun x => match x with HiddenRest s d => (true, Qred s, Qred d) | Element s e => (false, Qred s, el_length e) end))
       (parseEventsIn 8 9 [mkElement 1 1 false; mkElement (7#2) (1#2) false] 1 5)
     = Some [(true, 8%Q, 1%Q); (false, 9%Q, 1%Q); (true, 10%Q, (3#2)%Q); (false, (23#2)%Q, (1#2)%Q); (true, 12%Q, 4%Q); (true, 16%Q, 1%Q)].
Proof.
  split; [|vm_compute; reflexivity]. cbn. split; [discriminate|]. split; [intros X; destruct (Qlt_irrefl _ X)|].
  split; [discriminate|]. split; [|exact I]. intros _. apply isPowerOfTwoWithDots_spec; [discriminate|vm_compute; reflexivity].
Qed.

(** ** C74 *)

Theorem C74_refuted : exists staves calls, Forall rising_bins staves
  /\ insertMeasure staves = Some calls /\ ~ StronglySorted Qlt (map fst calls).
Proof.
  exists [[mkBin 0 [] []]; []; [mkBin 5 [] []]]. eexists. split; [|split; [vm_compute; reflexivity|]].
  - repeat constructor; discriminate.
  - intros H. cbn in H. inversion H as [|? ? _ F]; subst. inversion F as [|? ? L _]; subst. vm_compute in L. discriminate.
Qed.
Print Assumptions C74_refuted.

(** C74.  The full statement is that the events of all staves are handed over once, each staff's in
    its order, those of one time together, and the times are increasing.  Missing (only for the
    last part): a staff without events before a staff that begins later. *)
Theorem C74_partial staves : exists calls, insertMeasure staves = Some calls
  /\ (forall i s, nth_error staves i = Some s -> of_staff i calls = s)
  /\ (forall t now i b, In (t, now) calls -> In (i, b) now -> (bin_time b == t)%Q /\ i < length staves)
  /\ (Forall rising_bins staves ->
      (forall s, In s staves -> s <> [])
      \/ (exists t0, forall s b r, In s staves -> s = b :: r -> (bin_time b == t0)%Q) ->
      StronglySorted Qlt (map fst calls)).
Proof.
  destruct (insertMeasure staves) as [calls|] eqn:E; [|destruct (insert_ends _ E)]. exists calls. split; [reflexivity|].
  assert (INV : forall i s, In (i, s) (rev (number 0 staves)) <-> nth_error staves i = Some s).
  { intros i s. rewrite <- in_rev, number_in. split; [intros (j & -> & X); exact X|intros X; exists i; auto]. }
  unfold insertMeasure in E. split; [|split].
  - intros i s N. eapply walk_staff; [exact E| |apply INV; exact N].
    rewrite map_rev. apply NoDup_rev. rewrite number_fst. apply seq_NoDup.
  - intros t now i b I J. destruct (walk_at _ _ _ _ E _ _ _ _ I J) as (A & B). split; [exact A|].
    rewrite map_rev, <- in_rev, number_fst in B. apply in_seq in B. lia.
  - intros R W. assert (X : forall s, In s staves -> forall b, In b s -> (first_time (-1) staves <= bin_time b)%Q).
    { rewrite Forall_forall in R.
      assert (HD : (forall s b r, In s staves -> s = b :: r -> (first_time (-1) staves <= bin_time b)%Q) ->
                   forall s, In s staves -> forall b, In b s -> (first_time (-1) staves <= bin_time b)%Q).
      { intros H s I b J. destruct s as [|c s]; [destruct J|]. specialize (H _ c s I eq_refl). destruct J as [<-|J]; [exact H|].
        destruct (R _ I) as (S1 & _). inversion S1 as [|? ? _ F]; subst. rewrite Forall_forall in F.
        eapply Qle_trans; [exact H|]. apply Qlt_le_weak. exact (F b J). }
      assert (P : forall s b r, In s staves -> s = b :: r -> (0 <= bin_time b)%Q).
      { intros s b r I ->. destruct (R _ I) as (_ & F). inversion F; subst. assumption. }
      apply HD. destruct W as [W|(t0 & W)].
      - destruct staves as [|s0 staves]; [intros ? ? ? []|].
        destruct s0 as [|b0 r0]; [destruct (W [] (or_introl eq_refl) eq_refl)|].
        change (first_time (-1) ((b0 :: r0) :: staves)) with (first_time (bin_time b0) staves).
        destruct (first_time_min staves (bin_time b0)) as (A & B & C).
        + exact (P _ b0 r0 (or_introl eq_refl) eq_refl).
        + intros s I. apply W. right. exact I.
        + intros s b r I. apply P. right. exact I.
        + intros s b r [<-|I] Q; [injection Q as <- _; exact B|exact (C s b r I Q)].
      - intros s b r I Q. pose proof (W _ _ _ I Q) as T. pose proof (P _ _ _ I Q) as PB.
        destruct (first_time_same t0 staves (-1)%Q) as [Y|Y].
        + rewrite <- T. exact PB.
        + exact W.
        + right. reflexivity.
        + rewrite Y, T. apply Qle_refl.
        + apply Qlt_le_weak. eapply Qlt_le_trans; [exact Y|exact PB]. }
    destruct (walk_order _ _ _ _ E) as (K & _); [|exact K].
    intros i s I. apply INV in I. apply nth_error_In in I. rewrite Forall_forall in R.
    split; [exact (R s I)|exact (X s I)].
Qed.
Print Assumptions C74_partial.

Example C74_nonvacuous :
  option_map (map (fun c => (fst c, map fst (snd c))))
    (insertMeasure [[mkBin 0 [] []; mkBin 2 [] []]; [mkBin 0 [] []; mkBin 1 [] []; mkBin 2 [] []]])
  = Some [(0%Q, [1; 0]); (1%Q, [1]); (2%Q, [1; 0])].
Proof. vm_compute. reflexivity. Qed.

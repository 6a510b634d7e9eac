(** Property theorems C99: times in an exported MEI layer. *)
From Coq Require Import List QArith Lqa Lia Bool.
Import ListNotations.
From Verif Require Import DurationModel LayerFillModel LayerFillProofs.
Local Close Scope Q_scope.

(** If the objects of a voice follow one another, the layer holds those that can
    be written, in order, and a reader who adds up durations meets each of them,
    and each change of clef, key or meter, at its own offset. *)
Theorem C99_positions_partial : forall v em cs os its em2, (0 <= v)%Q -> follows v os ->
  makeLayer v em cs os = (its, em2) ->
  objs_of its = filter o_known os /\
  forall i p, In (i, p) (positions 0 its) ->
    match i with Space _ => True | Obj o => p == o_off o | Full c | Same c => p == c_off c end%Q.
Proof.
  intros v em cs os its em2 V F M. unfold makeLayer in M.
  destruct (put_objs _ em cs os) as [[[i1 l] em1] cs1] eqn:PO. destruct (changes_at_end l em1 cs1) as [fin em3] eqn:CE.
  injection M as <- <-.
  set (pre := if Qeq_bool v 0 then [] else spaces v) in *.
  assert (PR : (forall i, In i pre -> exists d, i = Space d) /\ (0 + total_dur pre == if Qeq_bool v 0 then 0 else v)%Q).
  { unfold pre. destruct (Qeq_bool v 0); [split; [intros i []|reflexivity]|]. split; [apply spaces_only|rewrite spaces_total; lra]. }
  destruct PR as [P1 P2]. clearbody pre.
  assert (F' : follows (if Qeq_bool v 0 then 0%Q else v) os).
  { destruct (Qeq_bool v 0) eqn:Z; [|exact F]. apply Qeq_bool_iff in Z. eapply follows_compat; [exact Z|exact F]. }
  destruct (put_objs_good _ _ _ _ _ _ _ _ _ PO F' P2) as (G & T & O).
  destruct (changes_good _ _ (changes_at_end_at _ _ _ _ _ CE)) as [CT CG].
  split.
  - destruct (objs_of_spaces _ P1) as [OS _]. unfold objs_of in *. rewrite !flat_map_app, OS, O.
    rewrite (changes_at_end_objs _ _ _ _ _ CE : flat_map _ fin = []). apply app_nil_r.
  - assert (GG : good 0 (pre ++ i1 ++ fin)).
    { apply good_app; [apply only_spaces_good; exact P1|]. apply good_app; [exact G|]. apply CG. exact T. }
    apply good_positions in GG. rewrite Forall_forall in GG. intros i p I. specialize (GG _ I). exact GG.
Qed.
Print Assumptions C99_positions_partial.

(** The changes of the staff that a layer holds: those at whose offset an object
    of the voice begins, or at which the layer ends. *)
Theorem C99_changes : forall v em cs os its em2, (0 <= v)%Q -> follows v os -> ascending_changes cs ->
  makeLayer v em cs os = (its, em2) ->
  changes_of its = filter (fun c => existsb (fun o => Qeq_bool (c_off c) (o_off o)) os || Qeq_bool (c_off c) (layer_end v os)) cs.
Proof.
  intros v em cs os its em2 V F A M. unfold makeLayer in M. unfold layer_end.
  destruct (put_objs _ em cs os) as [[[i1 l] em1] cs1] eqn:PO. destruct (changes_at_end l em1 cs1) as [fin em3] eqn:CE.
  destruct (put_objs_last _ _ _ _ _ _ _ _ [] [] PO) as (x & y & z & E). rewrite E. clear x y z E. injection M as <- <-.
  assert (F' : follows (if Qeq_bool v 0 then 0%Q else v) os).
  { destruct (Qeq_bool v 0) eqn:Z; [|exact F]. apply Qeq_bool_iff in Z. eapply follows_compat; [exact Z|exact F]. }
  destruct (put_objs_changes _ _ _ _ _ _ _ _ PO F' A) as (pop & -> & C & P & R).
  destruct (put_objs_end _ _ _ _ _ _ _ _ PO F') as [_ LE].
  assert (S2 : forall i, In i (if Qeq_bool v 0 then [] else spaces v) -> exists d, i = Space d) by (destruct (Qeq_bool v 0); [intros i []|apply spaces_only]).
  destruct (objs_of_spaces _ S2) as [_ CS]. unfold changes_of in *. rewrite !flat_map_app, CS, C.
  rewrite (changes_at_end_of _ _ _ _ _ CE : flat_map _ fin = _). cbn [app]. rewrite filter_app. f_equal.
  - apply filter_ext_Forall. eapply Forall_impl; [|exact P]. cbn. intros c (o & I & L). fold (at_obj os c).
    destruct (at_obj os c) eqn:Q; [reflexivity|]. cbn. symmetry. apply not_true_iff_false. intros X. apply Qeq_bool_iff in X.
    apply not_true_iff_false in Q. apply Q. apply existsb_exists. exists o. split; [exact I|]. apply Qeq_bool_iff.
    specialize (LE _ I). lra.
  - apply filter_ext_Forall. eapply Forall_impl; [|exact R]. cbn. intros c H.
    replace (existsb (fun o => Qeq_bool (c_off c) (o_off o)) os) with false; [reflexivity|].
    symmetry. apply not_true_iff_false. intros X. apply existsb_exists in X. destruct X as (o & I & Q). apply Qeq_bool_iff in Q.
    specialize (H _ I). lra.
Qed.
Print Assumptions C99_changes.

(** Over all layers of a staff, a change is written in full at most once, and
    every reference to it comes after that. *)
Theorem C99_once : forall cs ls, let its := concat (makeLayers [] cs ls) in
  (forall a c b, its = a ++ Same c :: b -> exists d, In (Full d) a /\ c_id d = c_id c) /\
  (forall a c m d b, its = a ++ Full c :: m ++ Full d :: b -> c_id c <> c_id d).
Proof.
  intros cs ls its. pose proof (makeLayers_flags cs ls []) as F. fold its in F. clearbody its.
  assert (FI : forall l em x, In x (flagged em l) <-> In x em \/ exists c, In (Full c) l /\ c_id c = x).
  { clear. induction l as [|i l IH]; intros em x; cbn.
    { split; [auto|]. intros [H|(c & [] & _)]. exact H. }
    destruct i as [d|o|c|c]; rewrite IH; cbn.
    - split; intros [H|(e & I & E)]; auto; right; exists e; split; auto. destruct I as [I|I]; [discriminate|exact I].
    - split; intros [H|(e & I & E)]; auto; right; exists e; split; auto. destruct I as [I|I]; [discriminate|exact I].
    - split.
      + intros [[H|H]|(e & I & E)]; auto; right; eauto.
      + intros [H|(e & [I|I] & E)]; auto; [|right; eauto]. left. left. congruence.
    - split; intros [H|(e & I & E)]; auto; right; exists e; split; auto. destruct I as [I|I]; [discriminate|exact I]. }
  split.
  - intros a c b ->. apply flags_app in F. destruct F as [_ [F _]]. apply FI in F. destruct F as [[]|(d & I & E)]. eauto.
  - intros a c m d b ->. apply flags_app in F. destruct F as [_ [_ F]]. apply flags_app in F. destruct F as [_ [F _]].
    intros E. apply F. apply FI. left. left. exact E.
Qed.
Print Assumptions C99_once.

(** Two voices, the second of which begins late and has a gap; a clef in the middle
    of the measure. *)
Definition ex99a := [mkO 1 0 2 true; mkO 2 2 2 true]%Q.
Definition ex99b := [mkO 3 1 1 true; mkO 4 2 0 true; mkO 5 3 1 true]%Q.
Definition ex99c := [mkC 10 2]%Q.
Example C99_nonvacuous :
  follows 0 ex99a /\ follows 1 ex99b /\ ascending_changes ex99c /\
  makeLayers [] ex99c [(0, ex99a); (1, ex99b)]%Q =
  [[Obj (mkO 1 0 2 true); Full (mkC 10 2); Obj (mkO 2 2 2 true)];
   [Space 1; Obj (mkO 3 1 1 true); Same (mkC 10 2); Obj (mkO 4 2 0 true); Space (3 - (2 + 0)); Obj (mkO 5 3 1 true)]]%Q.
Proof. split; [cbn; repeat split; lra|]. split; [cbn; repeat split; lra|]. split; [exact I|]. vm_compute. reflexivity. Qed.

(** A clef that stands in the voice in the middle of a held note makes the layer
    too long: the note after it is read too late. *)
Theorem C99_held_refuted : exists os o p, In o os /\
  (forall a b l1 l2, os = l1 ++ a :: b :: l2 -> o_off a <= o_off b)%Q /\
  In (Obj o, p) (positions 0 (fst (makeLayer 0 [] [] os))) /\ ~ (p == o_off o)%Q.
Proof.
  exists [mkO 1 0 4 true; mkO 2 2 0 true; mkO 3 4 4 true]%Q, (mkO 3 4 4 true)%Q. eexists.
  split; [right; right; left; reflexivity|]. split.
  { intros a b [|x [|y [|z l1]]] l2 E; injection E; intros; subst; cbn; try lra; try discriminate. destruct l1; discriminate. }
  split; [right; right; right; left; vm_compute; reflexivity|]. vm_compute. discriminate.
Qed.
Print Assumptions C99_held_refuted.

(** A change at a time when the notes of all voices go on is lost. *)
Theorem C99_lost_refuted : exists cs c ls, In c cs /\ ls <> [] /\ ascending_changes cs /\
  (forall v os, In (v, os) ls -> follows v os) /\
  forall l, In l (makeLayers [] cs ls) -> ~ In c (changes_of l).
Proof.
  exists [mkC 10 2]%Q, (mkC 10 2)%Q, [(0, [mkO 1 0 4 true]); (0, [mkO 2 0 3 true; mkO 3 3 1 true])]%Q.
  split; [left; reflexivity|]. split; [discriminate|]. split; [exact I|]. split.
  - intros v os [E|[E|[]]]; injection E as <- <-; cbn; repeat split; lra.
  - intros l [<-|[<-|[]]]; intros X; vm_compute in X; exact X.
Qed.
Print Assumptions C99_lost_refuted.

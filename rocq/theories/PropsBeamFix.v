(** C123: bad beams are repaired (converter21/shared/m21utilities.py:4067-4178). *)
From Coq Require Import List Bool Arith Lia.
From Verif Require Import BeamFixModel BeamFixProofs.
Import ListNotations.

(** What is said of a score: all notes are different objects, the voices of
    a measure have different ids, and every voice has a note in every measure
    in which it is (a voice of rests only would have none). *)
Definition proper (ps : list part) : Prop := NoDup (score_notes ps) /\ Forall voices_differ ps.
Definition notes_everywhere (p : part) : Prop := Forall (Forall (fun v : nat * list nat => snd v <> [])) p.
(** [b] is the next note after [a] in a voice of the part. *)
Definition next_in (p : part) (a b : nat) : Prop := exists k u v, line k p = u ++ a :: b :: v.
(** [a] is the last note of a voice in the last measure. *)
Definition last_in (p : part) (a : nat) : Prop := exists p' m k u, p = p' ++ [m] /\ In (k, u ++ [a]) m.
(** Beam [n] goes on in the beams [bs]: it is there and does not begin. *)
Definition goes_on (n : nat) (bs : beams) : Prop := exists u t v, bs = u ++ (n, t) :: v /\ ~ In n (map fst u) /\ t <> BStart.

Lemma by_number_spec n bs t : by_number n bs = Some t <-> exists u v, bs = u ++ (n, t) :: v /\ ~ In n (map fst u).
Proof.
  induction bs as [|[m s] bs IH]; cbn [by_number].
  - split; [discriminate|]. intros (u & v & E & _). destruct u; discriminate.
  - destruct (Nat.eqb_spec m n) as [-> |N].
    + split.
      * intros E. injection E as ->. exists [], bs. split; [reflexivity|exact (fun H => H)].
      * intros (u & v & E & H). destruct u as [|[m' s'] u]; [injection E as -> _; reflexivity|]. injection E as <- _ _. destruct H. left. reflexivity.
    + rewrite IH. split.
      * intros (u & v & -> & H). exists ((m, s) :: u), v. split; [reflexivity|]. cbn. tauto.
      * intros (u & v & E & H). destruct u as [|[m' s'] u]; [injection E as <- _ _; congruence|]. injection E as <- <- ->.
        exists u, v. split; [reflexivity|]. cbn in H. tauto.
Qed.
Lemma goes_on_by n bs : goes_on n bs <-> exists t, by_number n bs = Some t /\ t <> BStart.
Proof.
  split.
  - intros (u & t & v & E & H & N). exists t. split; [|exact N]. apply by_number_spec. exists u, v. split; assumption.
  - intros (t & E & N). apply by_number_spec in E as (u & v & E & H). exists u, t, v. repeat split; assumption.
Qed.

(** After the repair a beam that continues goes on in the next note of the
    voice.  Missing: a voice with no notes in a measure (see the refutation). *)
Theorem C123_continues_go_on_partial ps h p a b n : proper ps -> In p ps -> notes_everywhere p -> next_in p a b ->
  In (n, BContinue) (fixupBadBeams ps h a) -> goes_on n (fixupBadBeams ps h b).
Proof.
  intros [N V] I E (k & u & v & L) H. apply goes_on_by. rewrite fixup_run in *.
  refine (run_satisfied _ _ h (score_targets ps V N) (OPair a b) _ n H).
  apply score_op. exists p. split; [exact I|]. rewrite Forall_forall in V. exact (part_pair p a b k u v (V p I) E L).
Qed.
Print Assumptions C123_continues_go_on_partial.

(** After the repair no beam continues beyond the last measure. *)
Theorem C123_last_partial ps h p a n : proper ps -> In p ps -> last_in p a -> ~ In (n, BContinue) (fixupBadBeams ps h a).
Proof.
  intros [N V] I L. rewrite fixup_run.
  refine (run_satisfied _ _ h (score_targets ps V N) (OEnd a) _ n). apply score_op. exists p. split; [exact I|]. apply part_end. exact L.
Qed.
Print Assumptions C123_last_partial.

Lemma run_exact one ops h p x : NoDup (map target ops) -> In (OPair p x) ops ->
  exists bs, alike (h x) bs /\ run one ops h p = map (fix_beam one bs) (h p).
Proof.
  intros N H. apply in_split in H as (a & b & ->). rewrite map_app in N. cbn [map target] in N. apply NoDup_remove_2 in N.
  rewrite in_app_iff in N. exists (run one a h x). split; [apply run_alike|].
  rewrite run_app. change (OPair p x :: b) with ([OPair p x] ++ b). rewrite run_app, run_other by tauto.
  cbn. unfold upd. rewrite Nat.eqb_refl, fix_prev_map, (run_other one a h p) by tauto. reflexivity.
Qed.
(** Exactly the beams that continue and do not go on become stops. *)
Theorem C123_exactly_partial ps h p a b i n : proper ps -> In p ps -> notes_everywhere p -> next_in p a b ->
  nth_error (h a) i = Some (n, BContinue) ->
  (goes_on n (h b) -> nth_error (fixupBadBeams ps h a) i = Some (n, BContinue))
  /\ (~ goes_on n (h b) -> nth_error (fixupBadBeams ps h a) i = Some (n, BStop)).
Proof.
  intros [N V] I E (k & u & v & L) H. rewrite fixup_run.
  destruct (run_exact (Nat.eqb (length ps) 1) (concat (map part_ops ps)) h a b (score_targets ps V N)) as (bs & A & ->).
  { apply score_op. exists p. split; [exact I|]. rewrite Forall_forall in V. exact (part_pair p a b k u v (V p I) E L). }
  rewrite (map_nth_error _ _ _ H), goes_on_by. pose proof (alike_number _ _ n A) as B. cbn [fix_beam].
  destruct (by_number n (h b)) as [t|].
  - destruct B as (t' & -> & J). split.
    + intros (s & E' & Ns). injection E' as <-. destruct t'; try reflexivity; [tauto|]. destruct (Nat.eqb _ _); reflexivity.
    + intros G. assert (T : t = BStart) by (destruct t; try reflexivity; exfalso; apply G; eexists; (split; [reflexivity|discriminate])).
      apply J in T. subst t'. reflexivity.
  - rewrite B. split; [intros (s & E' & _); discriminate|]. intros _. reflexivity.
Qed.
Print Assumptions C123_exactly_partial.

(** Nothing but the exchange of continue and stop is ever done to a beam:
    for all scores, also those with shared notes and empty voices. *)
Theorem C123_only_continues_and_stops ps h x i : match nth_error (h x) i, nth_error (fixupBadBeams ps h x) i with
  | None, None => True
  | Some (n, t), Some (n', t') => n = n' /\ (t = t' \/ (In t [BContinue; BStop] /\ In t' [BContinue; BStop]))
  | _, _ => False
  end.
Proof.
  rewrite fixup_run. pose proof (run_alike (Nat.eqb (length ps) 1) (concat (map part_ops ps)) h x) as A.
  revert i. induction A as [|[n t] [n' t'] a b [E S] A IH]; intros i; [destruct i; exact I|].
  destruct i as [|i]; [|apply IH]. cbn in *. split; [exact E|]. destruct S as [S|[[-> | ->] [-> | ->]]]; tauto.
Qed.
Print Assumptions C123_only_continues_and_stops.

(** Beams that are right are left as they are: each beam that continues goes
    on, in the last measure none continues, and -- where the score is a single
    part -- no stop is followed by a stop. *)
Theorem C123_good_unchanged ps h : Forall voices_differ ps ->
  (forall p a b n, In p ps -> next_in p a b -> In (n, BContinue) (h a) -> goes_on n (h b)) ->
  (forall p a n, In p ps -> last_in p a -> ~ In (n, BContinue) (h a)) ->
  (length ps = 1 -> forall p a b n u v, In p ps -> next_in p a b -> In (n, BStop) (h a) -> h b = u ++ (n, BStop) :: v -> In n (map fst u)) ->
  forall x, fixupBadBeams ps h x = h x.
Proof.
  intros V C L S x. rewrite fixup_run. apply run_content. intros o H. apply score_op in H as (p & I & H).
  assert (Vp : voices_differ p) by (rewrite Forall_forall in V; apply V, I). destruct o as [a b|a].
  - apply (pair_part p a b Vp) in H. split.
    + intros n Hn. apply goes_on_by. exact (C p a b n I H Hn).
    + intros O n Hn E. apply Nat.eqb_eq in O. apply by_number_spec in E as (u & v & E & N). exact (N (S O p a b n u v I H Hn E)).
  - apply part_end in H. split; [|intros; exact Logic.I]. intros n. exact (L p a n I H).
Qed.
Print Assumptions C123_good_unchanged.

(** In a score of several parts a second repair changes nothing. *)
Theorem C123_idempotent_partial ps h : proper ps -> length ps <> 1 ->
  forall x, fixupBadBeams ps (fixupBadBeams ps h) x = fixupBadBeams ps h x.
Proof.
  intros [N V] O x. rewrite (fixup_run ps (fixupBadBeams ps h)). apply run_content. intros o H. split.
  - rewrite fixup_run. apply run_satisfied; [exact (score_targets ps V N)|exact H].
  - intros E. apply Nat.eqb_eq in E. contradiction.
Qed.
Print Assumptions C123_idempotent_partial.

(** ** Counterexamples *)
Definition beams_of (l : list (nat * btype)) : heap := fun x => map (fun b => (1, snd b)) (filter (fun b : nat * btype => Nat.eqb (fst b) x) l).

(** In a single part the second repair may change beams again, and it is the
    repair that makes two stops of two beams one beam. *)
Theorem C123_idempotent_refuted : exists ps h x, proper ps /\ (forall p, In p ps -> notes_everywhere p) /\
  fixupBadBeams ps (fixupBadBeams ps h) x <> fixupBadBeams ps h x.
Proof.
  exists [[[(0, [0; 1; 2])]]], (beams_of [(0, BStop); (1, BContinue); (2, BStart)]), 0. split; [|split].
  - split; [cbn; repeat constructor; cbn; intuition discriminate|]. repeat constructor; cbn; tauto.
  - intros p [<-|[]]. repeat constructor. discriminate.
  - vm_compute. discriminate.
Qed.
Print Assumptions C123_idempotent_refuted.

(** A voice that has no notes in the next measure, or is not in it at all,
    keeps a beam that continues into nothing. *)
Theorem C123_continues_go_on_refuted : exists ps h p a n, proper ps /\ In p ps /\ In a (score_notes ps)
  /\ (forall b, ~ next_in p a b) /\ In (n, BContinue) (fixupBadBeams ps h a).
Proof.
  exists [[[(0, [0]); (1, [1])]; [(0, [2])]]; []], (beams_of [(1, BContinue)]), [[(0, [0]); (1, [1])]; [(0, [2])]], 1, 1.
  split; [|split; [|split; [|split]]].
  - split; [cbn; repeat constructor; cbn; intuition discriminate|]. repeat constructor; cbn; intuition discriminate.
  - left. reflexivity.
  - cbn. tauto.
  - intros b (k & u & v & E). unfold line in E. cbn in E. destruct k as [|[|k]]; cbn in E;
    (destruct u as [|? [|? [|? u]]]; try discriminate; cbn in E; injection E; intros; try discriminate).
  - vm_compute. left. reflexivity.
Qed.
Print Assumptions C123_continues_go_on_refuted.
Theorem C123_empty_voice_refuted : exists ps h p a b n, proper ps /\ In p ps /\ next_in p a b
  /\ In (n, BContinue) (fixupBadBeams ps h a) /\ ~ goes_on n (fixupBadBeams ps h b).
Proof.
  exists [[[(0, [0])]; [(0, [])]; [(0, [1])]]; []], (beams_of [(0, BContinue); (1, BStart)]), [[(0, [0])]; [(0, [])]; [(0, [1])]], 0, 1, 1.
  split; [|split; [|split; [|split]]].
  - split; [cbn; repeat constructor; cbn; intuition discriminate|]. repeat constructor; cbn; tauto.
  - left. reflexivity.
  - exists 0, [], []. reflexivity.
  - vm_compute. left. reflexivity.
  - rewrite goes_on_by. vm_compute. intros (t & E & N). injection E as <-. apply N. reflexivity.
Qed.
Print Assumptions C123_empty_voice_refuted.

(** ** The hypotheses can be met *)
Example C123_nonvacuous :
  let p1 := [[(0, [0; 1]); (1, [2; 3])]; [(0, [4]); (1, [5])]] in
  let p2 := [[(0, [6])]; [(0, [7])]] in
  proper [p1; p2] /\ notes_everywhere p1 /\ next_in p1 1 4 /\ next_in p1 2 3 /\ last_in p1 5
  /\ map (fixupBadBeams [p1; p2] (beams_of [(0, BStart); (1, BContinue); (4, BStart); (2, BContinue); (3, BContinue); (5, BContinue); (6, BStop); (7, BStop)])) [0; 1; 2; 3; 4; 5; 6; 7]
     = [[(1, BStart)]; [(1, BStop)]; [(1, BContinue)]; [(1, BContinue)]; [(1, BStart)]; [(1, BStop)]; [(1, BStop)]; [(1, BStop)]].
Proof.
  cbv zeta. split; [|split; [|split; [|split; [|split]]]].
  - split; [cbn; repeat constructor; cbn; intuition discriminate|]. repeat constructor; cbn; intuition discriminate.
  - repeat constructor; discriminate.
  - exists 0, [0], []. reflexivity.
  - exists 1, [], [5]. reflexivity.
  - exists [[(0, [0; 1]); (1, [2; 3])]], [(0, [4]); (1, [5])], 1, []. split; [reflexivity|]. right. left. reflexivity.
  - vm_compute. reflexivity.
Qed.

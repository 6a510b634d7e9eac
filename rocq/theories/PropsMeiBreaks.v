(** C149: a page or system break between measures of an MEI file is put into the next measure
    of the top part. *)
From Coq Require Import List Ascii String NArith Bool Arith.
From Verif Require Import PyStr PyStrProofs MeiSectionModel PropsMeiSection PropsMeiDefs.
Import ListNotations.

(** What waits after an element of the file, if a page break counts more than a system break
    and breaks before the first measure do not count. *)
Definition waits (started : bool) (w : option break) (e : elem) : option break :=
  match e with
  | Pb false => if started then Some PageBreak else w
  | Sb false =>
      if started
      then match w with Some PageBreak => Some PageBreak | _ => Some SystemBreak end
      else w
  | _ => w
  end.

Section Top.
Variable topN : str.

(** The break of each measure: what waits is for the next measure with a staff for the top
    part. *)
Fixpoint breaks_due (started : bool) (w : option break) (l : list elem)
  : list (nat * option break) :=
  match l with
  | [] => []
  | Measure id staves _ :: r =>
      if existsb (fun k => str_eqb k topN) staves
      then (id, w) :: breaks_due true None r
      else (id, None) :: breaks_due true w r
  | e :: r => breaks_due started (waits started w e) r
  end.

Fixpoint still_due (started : bool) (w : option break) (l : list elem) : option break :=
  match l with
  | [] => w
  | Measure id staves _ :: r =>
      still_due true (if existsb (fun k => str_eqb k topN) staves then None else w) r
  | e :: r => still_due started (waits started w e) r
  end.

Definition begun (started : bool) (l : list elem) : bool := started || existsb is_measure l.

Lemma breaks_due_app : forall a b st w,
  breaks_due st w (a ++ b) = breaks_due st w a ++ breaks_due (begun st a) (still_due st w a) b.
Proof.
  unfold begun.
  induction a as [|e a IH]; intros b st w; [cbn; rewrite orb_false_r; reflexivity|].
  destruct e; cbn [app breaks_due still_due existsb is_measure orb]; try apply IH.
  rewrite orb_true_r.
  destruct (existsb (fun k => str_eqb k topN) staves); rewrite IH; reflexivity.
Qed.

Lemma still_due_app : forall a b st w,
  still_due st w (a ++ b) = still_due (begun st a) (still_due st w a) b.
Proof.
  unfold begun.
  induction a as [|e a IH]; intros b st w; [cbn; rewrite orb_false_r; reflexivity|].
  destruct e; cbn [app still_due existsb is_measure orb]; try apply IH.
  rewrite IH, orb_true_r. reflexivity.
Qed.

Lemma begun_app : forall a b st, begun st (a ++ b) = begun (begun st a) b.
Proof. intros a b st. unfold begun. rewrite existsb_app. apply orb_assoc. Qed.

(** Every break has a measure before it directly in its own section, or has no measure before
    it at all. *)
Definition here (started seen : bool) (e : elem) : bool :=
  match e with
  | Pb false => seen || negb started
  | Sb false => seen || negb started
  | _ => true
  end.

Fixpoint placed_elem (started seen : bool) (e : elem) : bool :=
  match e with
  | Section _ b =>
      (fix go (st sn : bool) (l : list elem) : bool :=
         match l with
         | [] => true
         | x :: r => placed_elem st sn x && go (begun st (flat x)) (sn || is_measure x) r
         end) started false b
  | e => here started seen e
  end.

Fixpoint placed (started seen : bool) (l : list elem) : bool :=
  match l with
  | [] => true
  | x :: r => placed_elem started seen x && placed (begun started (flat x)) (seen || is_measure x) r
  end.

Lemma placed_section : forall st sn en b,
  placed_elem st sn (Section en b) = placed st false b.
Proof.
  intros st sn en b. cbn [placed_elem]. generalize false. revert st.
  induction b as [|x b IH]; intros st k; [reflexivity|]. cbn [placed]. rewrite IH. reflexivity.
Qed.

(** The breaks of the measures of a part. *)
Fixpoint got_breaks (l : list item) : list (nat * option break) :=
  match l with
  | [] => []
  | IMeasure id _ _ b :: r => (id, b) :: got_breaks r
  | _ :: r => got_breaks r
  end.

Lemma brk_app : forall a b, got_breaks (a ++ b) = got_breaks a ++ got_breaks b.
Proof.
  induction a as [|x a IH]; intros b; [reflexivity|].
  destruct x; cbn [got_breaks app]; rewrite IH; reflexivity.
Qed.

Lemma brk_insert : forall o l, got_breaks (insert_first o l) = got_breaks l.
Proof.
  induction l as [|x l IH]; [reflexivity|].
  destruct x; cbn [insert_first got_breaks]; [reflexivity| |]; exact IH.
Qed.

Lemma brk_give : forall o l, got_breaks (give o l) = got_breaks l.
Proof.
  intros o l. unfold give. destruct o as [|x o]; [reflexivity|].
  destruct (take_instrument (x :: o)) as [[i r]|]; rewrite brk_insert; reflexivity.
Qed.

Lemma brk_close : forall i en l, got_breaks (close i en l) = got_breaks l.
Proof.
  intros i en l. unfold close. destruct en as [k|]; [|reflexivity].
  destruct i; [|reflexivity]. rewrite brk_app. cbn [got_breaks]. apply app_nil_r.
Qed.

Definition brk_elem (e : elem) : Prop :=
  forall i s st, (i = false -> is_measure e = false) ->
    (seen s = true -> st = true) ->
    placed_elem st (seen s) e = true ->
    exists new, parsed (read_elem topN topN i e s) = parsed s ++ new
      /\ got_breaks new = breaks_due st (nextBreak s) (flat e)
      /\ nextBreak (read_elem topN topN i e s) = still_due st (nextBreak s) (flat e)
      /\ seen (read_elem topN topN i e s) = seen s || is_measure e.

Definition brk_elems (l : list elem) : Prop :=
  forall i s st, (i = false -> forallb (fun e => negb (is_measure e)) l = true) ->
    (seen s = true -> st = true) ->
    placed st (seen s) l = true ->
    exists new, parsed (read_elems topN topN i l s) = parsed s ++ new
      /\ got_breaks new = breaks_due st (nextBreak s) (flat_map flat l)
      /\ nextBreak (read_elems topN topN i l s) = still_due st (nextBreak s) (flat_map flat l).

Lemma all_breaks : forall l, brk_elems l.
Proof.
  apply (elems_both brk_elem brk_elems).
  - intros i s st _ _ _. exists []. rewrite app_nil_r. split; [|split]; reflexivity.
  - intros e l He Hl i s st Hi Hs Hp.
    cbn [placed] in Hp. apply andb_true_iff in Hp as [P1 P2].
    assert (He' : i = false -> is_measure e = false).
    { intros H. apply Hi in H. cbn [forallb] in H. apply andb_true_iff in H as [H _].
      apply negb_true_iff in H. exact H. }
    assert (Hl' : i = false -> forallb (fun e => negb (is_measure e)) l = true).
    { intros H. apply Hi in H. cbn [forallb] in H. apply andb_true_iff in H as [_ H]. exact H. }
    destruct (He i s st He' Hs P1) as [a [A1 [A2 [A3 A4]]]].
    rewrite <- A4 in P2.
    destruct (Hl i (read_elem topN topN i e s) (begun st (flat e)) Hl') as [b [B1 [B2 B3]]].
    { rewrite A4. unfold begun. intros H. apply orb_true_iff in H as [H|H].
      - rewrite (Hs H). reflexivity.
      - destruct e; try discriminate H. cbn [flat existsb is_measure orb]. apply orb_true_r. }
    { exact P2. }
    exists (a ++ b). unfold read_elems in *. cbn [fold_left flat_map]. split; [|split].
    + rewrite B1, A1, app_assoc. reflexivity.
    + rewrite brk_app, A2, B2, A3, breaks_due_app. reflexivity.
    + rewrite B3, A3, still_due_app. reflexivity.
  - intros id sv r i s st Hi _ _. destruct i; [|discriminate (Hi eq_refl)].
    cbn [read_elem flat breaks_due still_due is_measure]. unfold read_measure, takes_break.
    cbv zeta. cbn [parsed nextBreak seen]. rewrite str_eqb_refl, orb_true_r.
    eexists. split; [reflexivity|]. cbn [got_breaks].
    destruct (existsb (fun k => str_eqb k topN) sv); split; [|split| |split]; reflexivity.
  - intros t a o i s st _ _ _. exists []. rewrite app_nil_r.
    cbn [is_measure]. rewrite orb_false_r. split; [|split; [|split]]; reflexivity.
  - intros k o i s st _ _ _. exists []. rewrite app_nil_r.
    cbn [is_measure]. rewrite orb_false_r. split; [|split; [|split]]; reflexivity.
  - intros en b Hb i s st _ Hs Hp. rewrite placed_section in Hp.
    set (s0 := mkState [] (pending s) [] (nextBreak s) (nextLeft s) false).
    destruct (Hb true s0 st) as [new [N1 [N2 N3]]]; [discriminate|discriminate|exact Hp|].
    change (parsed s0) with (@nil item) in N1. cbn [app] in N1.
    cbn [read_elem]. cbv zeta. fold s0.
    change (fold_left (fun a b0 => read_elem topN topN true b0 a) b s0)
      with (read_elems topN topN true b s0).
    cbn [parsed nextBreak seen is_measure]. rewrite orb_false_r.
    eexists. split; [reflexivity|]. split; [|split; [exact N3|reflexivity]].
    rewrite brk_close, brk_give, N1. exact N2.
  - intros o i s st _ Hs Hp. exists []. rewrite app_nil_r.
    cbn [read_elem flat breaks_due still_due is_measure placed_elem here got_breaks] in *.
    unfold read_pb. rewrite orb_false_r.
    destruct o; [rewrite andb_false_r; split; [|split; [|split]]; reflexivity|].
    cbn [waits here] in *. destruct (seen s) eqn:E; cbn [andb negb orb] in *.
    + rewrite (Hs eq_refl). split; [|split; [|split]]; first [reflexivity|exact E].
    + apply negb_true_iff in Hp. rewrite Hp. split; [|split; [|split]]; first [reflexivity|exact E].
  - intros o i s st _ Hs Hp. exists []. rewrite app_nil_r.
    cbn [read_elem flat breaks_due still_due is_measure placed_elem here got_breaks] in *.
    unfold read_sb. rewrite orb_false_r.
    destruct o; [rewrite andb_false_r; split; [|split; [|split]]; reflexivity|].
    cbn [waits here] in *. destruct (seen s) eqn:E; cbn [andb negb orb] in *.
    + rewrite (Hs eq_refl). split; [|split; [|split]]; first [reflexivity|exact E].
    + apply negb_true_iff in Hp. rewrite Hp. split; [|split; [|split]]; first [reflexivity|exact E].
  - intros i s st _ _ _. exists []. rewrite app_nil_r.
    cbn [is_measure]. rewrite orb_false_r. split; [|split; [|split]]; reflexivity.
Qed.
End Top.

(** C149: if every break stands after a measure of its own section or before all measures, the
    measures of the top part have exactly the breaks of the file. *)
Theorem C149_breaks_partial : forall topN l,
  forallb (fun e => negb (is_measure e)) l = true ->
  placed false false l = true ->
  got_breaks (read_score topN topN l) = breaks_due topN false None (flat_map flat l).
Proof.
  intros topN l H P. unfold read_score.
  destruct (all_breaks topN l false start false (fun _ => H)) as [new [N1 [N2 _]]].
  - discriminate.
  - exact P.
  - rewrite N1. exact N2.
Qed.
Print Assumptions C149_breaks_partial.

(** No other part has a break. *)
Theorem C149_other_parts : forall topN n l, topN <> n ->
  forall id b, In (id, b) (got_breaks (read_score topN n l)) -> b = None.
Proof.
  intros topN n l D.
  assert (A : forall l i s, exists new, parsed (read_elems topN n i l s) = parsed s ++ new
              /\ forall id b, In (id, b) (got_breaks new) -> b = None).
  { apply (elems_both
             (fun e => forall i s, exists new, parsed (read_elem topN n i e s) = parsed s ++ new
                /\ forall id b, In (id, b) (got_breaks new) -> b = None)
             (fun l => forall i s, exists new, parsed (read_elems topN n i l s) = parsed s ++ new
                /\ forall id b, In (id, b) (got_breaks new) -> b = None)).
    - intros i s. exists []. rewrite app_nil_r. split; [reflexivity|]. intros id b [].
    - intros e r He Hl i s. destruct (He i s) as [a [A1 A2]].
      destruct (Hl i (read_elem topN n i e s)) as [b [B1 B2]].
      exists (a ++ b). unfold read_elems in *. cbn [fold_left]. split.
      + rewrite B1, A1, app_assoc. reflexivity.
      + intros id k H. rewrite brk_app in H. apply in_app_or in H as [H|H];
          [exact (A2 _ _ H)|exact (B2 _ _ H)].
    - intros id sv r i s. destruct i.
      + cbn [read_elem]. unfold read_measure. cbv zeta. cbn [parsed].
        apply str_eqb_neq in D. rewrite D.
        eexists. split; [reflexivity|]. intros k b [H|[]]. injection H as _ H. symmetry. exact H.
      + exists []. rewrite app_nil_r. split; [reflexivity|]. intros k b [].
    - intros t a o i s. exists []. rewrite app_nil_r. split; [reflexivity|]. intros id b [].
    - intros k o i s. exists []. rewrite app_nil_r. split; [reflexivity|]. intros id b [].
    - intros en b Hb i s.
      set (s0 := mkState [] (pending s) [] (nextBreak s) (nextLeft s) false).
      destruct (Hb true s0) as [new [N1 N2]].
      change (parsed s0) with (@nil item) in N1. cbn [app] in N1.
      cbn [read_elem]. cbv zeta. fold s0.
      change (fold_left (fun a b0 => read_elem topN n true b0 a) b s0)
        with (read_elems topN n true b s0).
      cbn [parsed]. eexists. split; [reflexivity|].
      intros id k. rewrite brk_close, brk_give, N1. apply N2.
    - intros o i s. exists []. rewrite app_nil_r. cbn [read_elem]. unfold read_pb.
      destruct (seen s && negb o); (split; [reflexivity|intros id b []]).
    - intros o i s. exists []. rewrite app_nil_r. cbn [read_elem]. unfold read_sb.
      destruct (seen s && negb o); (split; [reflexivity|intros id b []]).
    - intros i s. exists []. rewrite app_nil_r. split; [reflexivity|]. intros id b []. }
  intros id b. unfold read_score. destruct (A l false start) as [new [N1 N2]].
  rewrite N1. apply N2.
Qed.
Print Assumptions C149_other_parts.

Example C149_nonvacuous :
  let l := [Section None [Pb false; M 1; Sb false; M 2; Pb true; M 3; Sb false; Pb false; Sb false;
                          Measure 4 [sB] false; M 5;
                          Section None [M 6; Sb false]; M 7];
            Section None [M 8]] in
  forallb (fun e => negb (is_measure e)) l = true
  /\ placed false false l = true
  /\ got_breaks (read_score sA sA l)
     = [(1, None); (2, Some SystemBreak); (3, None); (4, None); (5, Some PageBreak);
        (6, None); (7, Some SystemBreak); (8, None)]
  /\ sA <> sB /\ length (got_breaks (read_score sA sB l)) = 8.
Proof.
  split; [|split; [|split; [|split]]]; [| | |discriminate|]; vm_compute; reflexivity.
Qed.

(** A page break at the beginning of a section after the first is lost. *)
Theorem C149_section_start_refuted : exists l,
  breaks_due sA false None (flat_map flat l) = [(1, None); (2, Some PageBreak)]
  /\ got_breaks (read_score sA sA l) = [(1, None); (2, None)].
Proof.
  exists [Section None [M 1]; Section None [Pb false; M 2]].
  split; vm_compute; reflexivity.
Qed.
Print Assumptions C149_section_start_refuted.

(** And so is one between two sections, as in a section that has its measures in endings. *)
Theorem C149_between_sections_refuted : exists l,
  breaks_due sA false None (flat_map flat l) = [(1, None); (2, Some PageBreak)]
  /\ got_breaks (read_score sA sA l) = [(1, None); (2, None)].
Proof.
  exists [Section None [Section None [M 1]; Pb false; Section None [M 2]]].
  split; vm_compute; reflexivity.
Qed.
Print Assumptions C149_between_sections_refuted.

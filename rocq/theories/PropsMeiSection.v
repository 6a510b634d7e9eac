(** C146: the measures of an MEI file, in sections and endings of any depth, arrive in every
    part once and in the order of the file, with the repeat that "rptboth" begins.
    C148: an ending in a section becomes one bracket over exactly its measures. *)
From Coq Require Import List Ascii String NArith Bool Arith.
From Verif Require Import PyStr MeiSectionModel.
Import ListNotations.

(** Induction over elements and lists of elements at once. *)
Section Induction.
  Variable P : elem -> Prop.
  Variable Q : list elem -> Prop.
  Hypothesis Hnil : Q [].
  Hypothesis Hcons : forall e l, P e -> Q l -> Q (e :: l).
  Hypothesis Hm : forall id st r, P (Measure id st r).
  Hypothesis Hd : forall t a o, P (ScoreDef t a o).
  Hypothesis Hf : forall k o, P (StaffDef k o).
  Hypothesis Hs : forall en b, Q b -> P (Section en b).
  Hypothesis Hp : forall o, P (Pb o).
  Hypothesis Hq : forall o, P (Sb o).
  Hypothesis Ho : P Other.

  Fixpoint elem_both (e : elem) : P e :=
    match e with
    | Measure id st r => Hm id st r
    | ScoreDef t a o => Hd t a o
    | StaffDef k o => Hf k o
    | Section en b =>
        Hs en b ((fix go (l : list elem) : Q l :=
                    match l with
                    | [] => Hnil
                    | x :: r => Hcons x r (elem_both x) (go r)
                    end) b)
    | Pb o => Hp o
    | Sb o => Hq o
    | Other => Ho
    end.

  Lemma elems_both : forall l, Q l.
  Proof. induction l as [|e l IH]; [exact Hnil|]. apply Hcons; [apply elem_both|exact IH]. Qed.
End Induction.

(** The measures of the file in the order of the file, each with whether it ends in a repeat
    to both sides. *)
Fixpoint measures_in (e : elem) : list (nat * bool) :=
  match e with
  | Measure id _ r => [(id, r)]
  | Section _ b => flat_map measures_in b
  | _ => []
  end.

(** A measure has a repeat on its left if the measure before ends in one to both sides. *)
Fixpoint with_left (before : bool) (l : list (nat * bool)) : list (nat * bool) :=
  match l with
  | [] => []
  | (id, r) :: rest => (id, before) :: with_left r rest
  end.

(** MEI has measures only in sections and endings. *)
Definition is_measure (e : elem) : bool :=
  match e with Measure _ _ _ => true | _ => false end.

(** The measures of a part, each with whether it was given a repeat on the left. *)
Fixpoint got_measures (l : list item) : list (nat * bool) :=
  match l with
  | [] => []
  | IMeasure id _ lf _ :: r => (id, lf) :: got_measures r
  | _ :: r => got_measures r
  end.

Lemma got_app : forall a b, got_measures (a ++ b) = got_measures a ++ got_measures b.
Proof.
  induction a as [|x a IH]; intros b; [reflexivity|].
  destruct x; cbn [got_measures app]; rewrite IH; reflexivity.
Qed.

Lemma got_insert : forall o l, got_measures (insert_first o l) = got_measures l.
Proof.
  induction l as [|x l IH]; [reflexivity|].
  destruct x; cbn [insert_first got_measures]; [reflexivity| |]; exact IH.
Qed.

Lemma got_give : forall o l, got_measures (give o l) = got_measures l.
Proof.
  intros o l. unfold give. destruct o as [|x o]; [reflexivity|].
  destruct (take_instrument (x :: o)) as [[i r]|]; rewrite got_insert; reflexivity.
Qed.

Lemma got_close : forall i en l, got_measures (close i en l) = got_measures l.
Proof.
  intros i en l. unfold close. destruct en as [k|]; [|reflexivity].
  destruct i; [|reflexivity]. rewrite got_app. cbn [got_measures]. apply app_nil_r.
Qed.

Definition last_right (before : bool) (l : list (nat * bool)) : bool :=
  fold_left (fun _ x => snd x) l before.

Lemma with_left_app : forall a b k,
  with_left k (a ++ b) = with_left k a ++ with_left (last_right k a) b.
Proof.
  induction a as [|[id r] a IH]; intros b k; [reflexivity|].
  cbn [app with_left]. rewrite IH. reflexivity.
Qed.

Lemma last_right_app : forall a b k, last_right k (a ++ b) = last_right (last_right k a) b.
Proof. intros a b k. apply fold_left_app. Qed.

Section Order.
  Variables topN n : str.

  Definition ok_elem (e : elem) : Prop :=
    forall i s, (i = false -> is_measure e = false) ->
      exists new, parsed (read_elem topN n i e s) = parsed s ++ new
        /\ got_measures new = with_left (nextLeft s) (measures_in e)
        /\ nextLeft (read_elem topN n i e s) = last_right (nextLeft s) (measures_in e).

  Definition ok_elems (l : list elem) : Prop :=
    forall i s, (i = false -> forallb (fun e => negb (is_measure e)) l = true) ->
      exists new, parsed (read_elems topN n i l s) = parsed s ++ new
        /\ got_measures new = with_left (nextLeft s) (flat_map measures_in l)
        /\ nextLeft (read_elems topN n i l s)
           = last_right (nextLeft s) (flat_map measures_in l).

  Ltac nothing_new := exists []; rewrite app_nil_r; split; [|split]; reflexivity.

  Lemma all_elems : forall l, ok_elems l.
  Proof.
    apply (elems_both ok_elem ok_elems).
    - intros i s _. nothing_new.
    - intros e l He Hl i s Hi.
      assert (He' : i = false -> is_measure e = false).
      { intros H. apply Hi in H. cbn [forallb] in H. apply andb_true_iff in H as [H _].
        apply negb_true_iff in H. exact H. }
      assert (Hl' : i = false -> forallb (fun e => negb (is_measure e)) l = true).
      { intros H. apply Hi in H. cbn [forallb] in H. apply andb_true_iff in H as [_ H].
        exact H. }
      destruct (He i s He') as [a [A1 [A2 A3]]].
      destruct (Hl i (read_elem topN n i e s) Hl') as [b [B1 [B2 B3]]].
      exists (a ++ b). unfold read_elems in *. cbn [fold_left flat_map].
      split; [|split].
      + rewrite B1, A1, app_assoc. reflexivity.
      + rewrite got_app, A2, B2, A3, with_left_app. reflexivity.
      + rewrite B3, A3, last_right_app. reflexivity.
    - intros id st r i s Hi. destruct i; [|discriminate (Hi eq_refl)].
      cbn [read_elem measures_in]. unfold read_measure. cbv zeta. cbn [parsed nextLeft].
      eexists. split; [reflexivity|]. split; reflexivity.
    - intros t a o i s _. nothing_new.
    - intros k o i s _. nothing_new.
    - intros en b Hb i s _.
      destruct (Hb true (mkState [] (pending s) [] (nextBreak s) (nextLeft s) false))
        as [new [N1 [N2 N3]]]; [discriminate|].
      cbn [parsed nextLeft app] in N1, N2, N3.
      cbn [read_elem measures_in]. cbv zeta. fold (read_elems topN n true b).
      change (fold_left (fun a b0 => read_elem topN n true b0 a) b ?x)
        with (read_elems topN n true b x).
      cbn [parsed nextLeft].
      eexists. split; [reflexivity|]. split.
      + rewrite got_close, got_give, N1. exact N2.
      + exact N3.
    - intros o i s _. exists []. rewrite app_nil_r. cbn [read_elem measures_in with_left].
      unfold read_pb. destruct (seen s && negb o); split; [|split| |split]; reflexivity.
    - intros o i s _. exists []. rewrite app_nil_r. cbn [read_elem measures_in with_left].
      unfold read_sb. destruct (seen s && negb o); split; [|split| |split]; reflexivity.
    - intros i s _. nothing_new.
  Qed.
End Order.

(** C146: for every file, whatever the nesting, every part has the measures of the file once
    and in the order of the file, and a measure has a repeat carried over to its left side
    exactly if the measure before it, in whatever section, ends in a repeat to both sides. *)
Theorem C146_measures : forall topN n l,
  forallb (fun e => negb (is_measure e)) l = true ->
  got_measures (read_score topN n l) = with_left false (flat_map measures_in l).
Proof.
  intros topN n l H. unfold read_score.
  destruct (all_elems topN n l false start (fun _ => H)) as [new [N1 [N2 _]]].
  rewrite N1. exact N2.
Qed.
Print Assumptions C146_measures.

Definition sA : str := S_ "1".
Definition sB : str := S_ "2".

Example C146_nonvacuous :
  let l := [Section None
              [Measure 1 [sA; sB] true;
               Section None [Measure 2 [sA; sB] false];
               Section (Some (Some (S_ "1"))) [Measure 3 [sA; sB] true]];
            Section None [Other; Measure 4 [sA] false]] in
  forallb (fun e => negb (is_measure e)) l = true
  /\ got_measures (read_score sA sB l) = [(1, false); (2, true); (3, false); (4, true)].
Proof. split; vm_compute; reflexivity. Qed.

(** Repeat brackets. *)

(** The endings within sections, in the order in which they end, each with its @n and its
    measures. *)
Fixpoint endings_in (e : elem) : list (option str * list nat) :=
  match e with
  | Section en b =>
      flat_map (fun x => endings_in x
                           ++ match x with
                              | Section (Some k) _ => [(k, map fst (measures_in x))]
                              | _ => []
                              end) b
  | _ => []
  end.

Fixpoint got_brackets (l : list item) : list (option str * list nat) :=
  match l with
  | [] => []
  | IBracket k ms :: r => (k, ms) :: got_brackets r
  | _ :: r => got_brackets r
  end.

Lemma bra_app : forall a b, got_brackets (a ++ b) = got_brackets a ++ got_brackets b.
Proof.
  induction a as [|x a IH]; intros b; [reflexivity|].
  destruct x; cbn [got_brackets app]; rewrite IH; reflexivity.
Qed.

Lemma bra_insert : forall o l, got_brackets (insert_first o l) = got_brackets l.
Proof.
  induction l as [|x l IH]; [reflexivity|].
  destruct x; cbn [insert_first got_brackets]; [reflexivity|exact IH|].
  rewrite IH. reflexivity.
Qed.

Lemma bra_give : forall o l, got_brackets (give o l) = got_brackets l.
Proof.
  intros o l. unfold give. destruct o as [|x o]; [reflexivity|].
  destruct (take_instrument (x :: o)) as [[i r]|]; rewrite bra_insert; reflexivity.
Qed.

Lemma ids_got : forall l, measure_ids l = map fst (got_measures l).
Proof.
  induction l as [|x l IH]; [reflexivity|].
  destruct x; cbn [measure_ids got_measures map fst]; rewrite IH; reflexivity.
Qed.

Lemma ids_with_left : forall l k, map fst (with_left k l) = map fst l.
Proof.
  induction l as [|[id r] l IH]; intros k; [reflexivity|].
  cbn [with_left map fst]. rewrite IH. reflexivity.
Qed.

Section Brackets.
  Variables topN n : str.

  Definition own_bracket (i : bool) (e : elem) : list (option str * list nat) :=
    match e with
    | Section (Some k) _ => if i then [(k, map fst (measures_in e))] else []
    | _ => []
    end.

  Definition bra_elem (e : elem) : Prop :=
    forall i s, exists new, parsed (read_elem topN n i e s) = parsed s ++ new
        /\ got_brackets new = endings_in e ++ own_bracket i e.

  Definition bra_elems (l : list elem) : Prop :=
    forall i s, exists new, parsed (read_elems topN n i l s) = parsed s ++ new
        /\ got_brackets new = flat_map (fun e => endings_in e ++ own_bracket i e) l.

  Lemma all_brackets : forall l, bra_elems l.
  Proof.
    apply (elems_both bra_elem bra_elems).
    - intros i s. exists []. rewrite app_nil_r. split; reflexivity.
    - intros e l He Hl i s.
      destruct (He i s) as [a [A1 A2]].
      destruct (Hl i (read_elem topN n i e s)) as [b [B1 B2]].
      exists (a ++ b). unfold read_elems in *. cbn [fold_left flat_map]. split.
      + rewrite B1, A1, app_assoc. reflexivity.
      + rewrite bra_app, A2, B2. reflexivity.
    - intros id st r i s. cbn [read_elem endings_in own_bracket]. destruct i.
      + unfold read_measure. cbv zeta. cbn [parsed]. eexists. split; reflexivity.
      + exists []. rewrite app_nil_r. split; reflexivity.
    - intros t a o i s. exists []. rewrite app_nil_r. split; reflexivity.
    - intros k o i s. exists []. rewrite app_nil_r. split; reflexivity.
    - intros en b Hb i s.
      set (s0 := mkState [] (pending s) [] (nextBreak s) (nextLeft s) false).
      destruct (Hb true s0) as [new [N1 N2]].
      destruct (all_elems topN n b true s0) as [new' [M1 [M2 _]]]; [discriminate|].
      cbn [read_elem]. cbv zeta. fold s0.
      change (fold_left (fun a b0 => read_elem topN n true b0 a) b s0)
        with (read_elems topN n true b s0).
      change (parsed s0) with (@nil item) in N1, M1. cbn [app] in N1, M1. cbn [parsed].
      eexists. split; [reflexivity|].
      assert (E : endings_in (Section en b)
                  = flat_map (fun e => endings_in e ++ own_bracket true e) b).
      { cbn [endings_in]. clear. induction b as [|x b IH]; [reflexivity|].
        cbn [flat_map]. rewrite IH. destruct x; reflexivity. }
      rewrite E, <- N2, <- N1. unfold close, own_bracket.
      destruct en as [k|]; [|rewrite bra_give, app_nil_r; reflexivity].
      destruct i; [|rewrite bra_give, app_nil_r; reflexivity].
      rewrite bra_app, bra_give. cbn [got_brackets measures_in]. do 3 f_equal.
      rewrite ids_got, got_give, M1, M2. unfold s0. cbn [nextLeft].
      rewrite ids_with_left. reflexivity.
    - intros o i s. exists []. rewrite app_nil_r. cbn [read_elem]. unfold read_pb.
      destruct (seen s && negb o); split; reflexivity.
    - intros o i s. exists []. rewrite app_nil_r. cbn [read_elem]. unfold read_sb.
      destruct (seen s && negb o); split; reflexivity.
    - intros i s. exists []. rewrite app_nil_r. split; reflexivity.
  Qed.
End Brackets.

(** C148: every part has, for each ending within a section, at whatever depth, one bracket
    with the @n of the ending and exactly the measures of the ending, and no other bracket. *)
Theorem C148_brackets : forall topN n l,
  got_brackets (read_score topN n l) = flat_map endings_in l.
Proof.
  intros topN n l. unfold read_score.
  destruct (all_brackets topN n l false start) as [new [N1 N2]].
  rewrite N1. cbn [start parsed app]. rewrite N2. clear.
  induction l as [|e l IH]; [reflexivity|]. cbn [flat_map]. rewrite IH.
  destruct e as [| | |[k|] b| | |]; cbn [own_bracket]; rewrite app_nil_r; reflexivity.
Qed.
Print Assumptions C148_brackets.

Example C148_nonvacuous :
  let l := [Section None
              [Measure 1 [sA; sB] false;
               Section (Some (Some (S_ "1")))
                 [Measure 2 [sA; sB] false;
                  Section (Some None) [Measure 3 [sA] false]];
               Section (Some (Some (S_ "2"))) [Measure 4 [sA; sB] false]]] in
  got_brackets (read_score sA sB l)
  = [(None, [3]); (Some (S_ "1"), [2; 3]); (Some (S_ "2"), [4])].
Proof. vm_compute. reflexivity. Qed.

(** An ending directly in the score has measures, but no bracket. *)
Theorem C148_ending_in_score_refuted : exists topN n k ms l,
  l = [Section (Some (Some k)) ms]
  /\ got_measures (read_score topN n l) = [(1, false); (2, false)]
  /\ got_brackets (read_score topN n l) = [].
Proof.
  exists sA, sA, (S_ "1"), [Measure 1 [sA] false; Measure 2 [sA] false],
    [Section (Some (Some (S_ "1"))) [Measure 1 [sA] false; Measure 2 [sA] false]].
  split; [reflexivity|]. split; vm_compute; reflexivity.
Qed.
Print Assumptions C148_ending_in_score_refuted.

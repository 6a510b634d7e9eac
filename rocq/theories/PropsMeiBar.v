(** C87: barlines survive export to MEI and re-import. *)
From Verif Require Import PyStr PyStrProofs MeiBarModel.

(** ** Vocabulary *)

(** What is drawn between two measures, given the right barline of the one and the left barline
    of the other: an invisible barline hides all, repeats come next, then the strongest line. *)
Inductive symbol := SPlain | SDotted | SDashed | SDouble | SFinal | SHeavy | SReverse | STick | SShort | SHeavies | SStart | SEnd | SBoth | SNothing.
Definition bar_eq_dec (a b : barline) : {a = b} + {a <> b}.
Proof. decide equality. decide equality. Defined.
Definition has (b : barline) (r l : option barline) : bool :=
  match r with Some x => if bar_eq_dec x b then true else false | None => false end || match l with Some x => if bar_eq_dec x b then true else false | None => false end.
Definition drawn (r l : option barline) : symbol :=
  if has (Bar Invisible) r l then SNothing
  else if has RepeatStart r l && has RepeatEnd r l then SBoth
  else if has RepeatStart r l then SStart
  else if has RepeatEnd r l then SEnd
  else if has (Bar Final) r l then SFinal
  else if has (Bar Double) r l then SDouble
  else if has (Bar Dashed) r l then SDashed
  else if has (Bar Dotted) r l then SDotted
  else if has (Bar Heavy) r l then SHeavy
  else if has (Bar HeavyLight) r l then SReverse
  else if has (Bar HeavyHeavy) r l then SHeavies
  else if has (Bar Tick) r l then STick
  else if has (Bar Short) r l then SShort
  else SPlain.
(** The barlines that MEI knows. *)
Definition known (b : option barline) : Prop :=
  match b with Some (Bar Heavy) | Some (Bar HeavyLight) | Some (Bar HeavyHeavy) | Some (Bar Tick) | Some (Bar Short) => False | _ => True end.
(** Left and right barline of staff [k] in measure [i]; nothing outside. *)
Definition left_of (ms : list (list staff_measure)) (i k : nat) : option barline := match nth_error ms i with Some m => match nth_error m k with Some s => fst s | None => None end | None => None end.
Definition right_of (ms : list (list staff_measure)) (i k : nat) : option barline := match nth_error ms i with Some m => match nth_error m k with Some s => snd s | None => None end | None => None end.
(** What is drawn before measure [i] of staff [k]. *)
Definition drawn_before (ms : list (list staff_measure)) (i k : nat) : symbol :=
  match i with O => drawn None (left_of ms 0 k) | S j => drawn (right_of ms j k) (left_of ms i k) end.
(** [n] staves with the same known barlines in all of them; a repeat starts on the left of a
    measure and ends on its right. *)
Definition uniform (n : nat) (ms : list (list staff_measure)) : Prop :=
  forall m, In m ms -> exists l r, m = repeat (l, r) n /\ known l /\ known r /\ l <> Some RepeatEnd /\ r <> Some RepeatStart.

(** The measures in a section, in their order. *)
Fixpoint measures_in (e : element) : list measure_attrs :=
  match e with EMeasure a => [a] | ESection l => flat_map measures_in l end.

(** ** Proofs *)

(** Sections and endings do not matter. *)
Fixpoint read_flat (n : nat) (pending : option barline) (l : list measure_attrs) : list (list staff_measure) * option barline :=
  match l with
  | [] => ([], pending)
  | a :: r => let '(lft, rgt, next) := makeBarlines a in
              let '(y, p) := read_flat n next r in
              (repeat (match pending with Some b => Some b | None => lft end, rgt) n :: y, p)
  end.
Lemma read_flat_app n : forall l1 l2 p, read_flat n p (l1 ++ l2) = let '(x, p1) := read_flat n p l1 in let '(y, p2) := read_flat n p1 l2 in (x ++ y, p2).
Proof.
  induction l1 as [|a l1 IH]; intros l2 p; cbn [app read_flat].
  - destruct (read_flat n p l2). reflexivity.
  - destruct (makeBarlines a) as [[lf rg] nx]. rewrite IH. destruct (read_flat n nx l1) as [x p1]. destruct (read_flat n p1 l2) as [y p2]. reflexivity.
Qed.
Lemma read_element_flat n : forall e p, read_element n p e = read_flat n p (measures_in e).
Proof.
  fix IH 1. intros [a|l] p.
  - cbn [measures_in read_element read_flat]. destruct (makeBarlines a) as [[lf rg] nx]. reflexivity.
  - cbn [measures_in read_element]. revert p. induction l as [|e l IHl]; intros p; [reflexivity|]. cbn [flat_map]. rewrite read_flat_app, (IH e p). destruct (read_flat n p (measures_in e)) as [x p1]. rewrite IHl. reflexivity.
Qed.

(** One boundary: what is written for a right and a next left barline, and what is read. *)
Lemma boundary r l : known r -> known l -> exists s, bars_attr r l = Some s /\
  forall x, let '(_, r', n) := makeBarlines (x, s) in drawn r' n = drawn r l /\
  (drawn r l <> SNothing -> (r' = Some RepeatEnd <-> (r = Some RepeatEnd \/ l = Some RepeatEnd)) /\ (n = Some RepeatStart <-> (r = Some RepeatStart \/ l = Some RepeatStart))).
Proof.
  intros R L. destruct r as [[[]| |]|]; try contradiction R; destruct l as [[[]| |]|]; try contradiction L;
    (eexists; split; [vm_compute; reflexivity|]; intros x; cbv [makeBarlines fst snd]; match goal with |- context [barlineFromAttr ?s] => let v := eval vm_compute in (barlineFromAttr s) in change (barlineFromAttr s) with v end; cbv beta iota; split; [vm_compute; reflexivity|]; intros N; try (exfalso; apply N; vm_compute; reflexivity); split; split; (intros; (tauto || (exfalso; intuition discriminate) || (intuition discriminate) || (intuition congruence)))).
Qed.

Lemma first_left l : known l -> l <> Some RepeatEnd -> exists s, bar_attr l = Some s /\ forall y, let '(l', _, _) := makeBarlines (s, y) in drawn None l' = drawn None l.
Proof.
  intros L N. destruct l as [[[]| |]|]; try contradiction L; try (exfalso; apply N; reflexivity); (eexists; split; [reflexivity|]; intros y; cbv [makeBarlines fst snd]; destruct (barlineFromAttr y) as [[t| |] [n|]]; vm_compute; reflexivity).
Qed.

(** What is read for each measure. *)
Definition rgt_of (a : measure_attrs) : option barline := snd (fst (makeBarlines a)).
Definition nxt_of (a : measure_attrs) : option barline := snd (makeBarlines a).
Definition lft_of (a : measure_attrs) : option barline := fst (fst (makeBarlines a)).
Definition or_else (p l : option barline) := match p with Some b => Some b | None => l end.
Lemma read_first n p a l : nth_error (fst (read_flat n p (a :: l))) 0 = Some (repeat (or_else p (lft_of a), rgt_of a) n).
Proof. cbn [read_flat]. unfold lft_of, rgt_of. destruct (makeBarlines a) as [[lf rg] nx]. destruct (read_flat n nx l). reflexivity. Qed.
Lemma read_step n p a l i : nth_error (fst (read_flat n p (a :: l))) (S i) = nth_error (fst (read_flat n (nxt_of a) l)) i.
Proof. cbn [read_flat]. unfold nxt_of. destruct (makeBarlines a) as [[lf rg] nx]. cbn [snd]. destruct (read_flat n nx l). reflexivity. Qed.
Lemma read_length n : forall l p, length (fst (read_flat n p l)) = length l.
Proof. induction l as [|a l IH]; intros p; [reflexivity|]. cbn [read_flat]. destruct (makeBarlines a) as [[lf rg] nx]. specialize (IH nx). destruct (read_flat n nx l). cbn in *. congruence. Qed.
Lemma read_at n : forall l p i a, nth_error l i = Some a ->
  nth_error (fst (read_flat n p l)) i = Some (repeat (or_else (match i with O => p | S j => match nth_error l j with Some b => nxt_of b | None => None end end) (lft_of a), rgt_of a) n).
Proof.
  induction l as [|b l IH]; intros p i a H; [destruct i; discriminate|]. destruct i as [|i].
  - injection H as ->. apply read_first.
  - rewrite read_step. cbn [nth_error] in H. rewrite (IH _ _ _ H). destruct i as [|i]; reflexivity.
Qed.

(** What is written for each measure. *)
Definition next_left (next : option (list staff_measure)) : option barline := match next with Some ((l', _) :: _) => l' | _ => None end.
Lemma write_measure_eq first l r t next : write_measure first ((l, r) :: t) next =
  match (if first then bar_attr l else Some []), bars_attr r (next_left next) with Some x, Some y => Some (x, y) | _, _ => None end.
Proof. reflexivity. Qed.
Lemma write_at : forall (ms : list (list staff_measure)) first, (forall m, In m ms -> exists l r n, m = repeat (l, r) (S n) /\ known l /\ known r) ->
  exists attrs, write_measures first ms = Some attrs /\ length attrs = length ms /\
  forall i l r n, nth_error ms i = Some (repeat (l, r) (S n)) -> exists a, nth_error attrs i = Some a /\
    bars_attr r (left_of ms (S i) 0) = Some (snd a) /\ (if first then match i with O => bar_attr l = Some (fst a) | S _ => fst a = [] end else fst a = []).
Proof.
  induction ms as [|m ms IH]; intros first H.
  - exists []. split; [reflexivity|]. split; [reflexivity|]. intros i l r n E. destruct i; discriminate E.
  - destruct (IH false (fun m' I => H m' (or_intror I))) as (attrs & W & L & A). destruct (H m (or_introl eq_refl)) as (l & r & n & E & Kl & Kr).
    assert (NK : known (next_left (nth_error ms 0))).
    { destruct ms as [|m2 ms']; [exact I|]. cbn [nth_error]. destruct (H m2 (or_intror (or_introl eq_refl))) as (l2 & r2 & n2 & -> & K2 & _). exact K2. }
    assert (NL : left_of (m :: ms) 1 0 = next_left (nth_error ms 0)).
    { unfold left_of. cbn [nth_error]. destruct ms as [|m2 ms']; [reflexivity|]. destruct m2 as [|[l2 r2] m2]; reflexivity. }
    destruct (boundary r _ Kr NK) as (s & B & _).
    assert (exists x, (if first then bar_attr l else Some []) = Some x) as (x & X).
    { destruct first; [|eexists; reflexivity]. destruct l as [[[]| |]|]; try contradiction Kl; eexists; reflexivity. }
    exists ((x, s) :: attrs). cbn [write_measures]. rewrite W. subst m. cbn [repeat]. rewrite write_measure_eq, X, B. split; [reflexivity|]. split; [cbn [length]; congruence|].
    intros i l' r' n' E. destruct i as [|i].
    + cbn [nth_error] in E. cbn [repeat] in E. injection E as <- <- _. exists (x, s). split; [reflexivity|]. cbn [snd fst]. cbn [repeat] in NL. rewrite NL. split; [exact B|]. destruct first; [exact X|congruence].
    + cbn [nth_error] in E |- *. destruct (A i l' r' n' E) as (a & N1 & N2 & N3). exists a. split; [exact N1|]. split; [exact N2|]. destruct first; exact N3.
Qed.

Lemma nth_repeat_in {A} (x : A) n k : k < n -> nth_error (repeat x n) k = Some x.
Proof. revert k. induction n as [|n IH]; intros k H; [inversion H|]. destruct k as [|k]; [reflexivity|]. cbn. apply IH. apply PeanoNat.Nat.succ_lt_mono. exact H. Qed.

Lemma lft_of_empty y : lft_of ([], y) = None.
Proof. unfold lft_of, makeBarlines. cbn [fst snd]. destruct (barlineFromAttr y) as [[t| |] [b|]]; reflexivity. Qed.
Lemma or_else_None p : or_else p None = p.
Proof. destruct p; reflexivity. Qed.

(** Everything about one score. *)
Lemma barlines n ms : uniform (S n) ms -> exists attrs, write_bars ms = Some attrs /\ forall doc, measures_in doc = attrs ->
  let back := read_bars (S n) doc in
  length back = length ms /\
  (forall i, i < length ms -> exists m, nth_error back i = Some m /\ length m = S n) /\
  (forall i k, i < length ms -> k < S n ->
     drawn (right_of back i k) (left_of back (S i) k) = drawn (right_of ms i k) (left_of ms (S i) k) /\
     (drawn (right_of ms i k) (left_of ms (S i) k) <> SNothing ->
       (right_of back i k = Some RepeatEnd <-> right_of ms i k = Some RepeatEnd) /\ (left_of back (S i) k = Some RepeatStart <-> left_of ms (S i) k = Some RepeatStart))) /\
  (forall k, k < S n -> 0 < length ms -> drawn None (left_of back 0 k) = drawn None (left_of ms 0 k) /\ (left_of back 0 k = Some RepeatStart <-> left_of ms 0 k = Some RepeatStart)).
Proof.
  intros U. destruct (write_at ms true) as (attrs & W & L & A).
  { intros m I. destruct (U m I) as (l & r & E & K1 & K2 & _). exists l, r, n. auto. }
  exists attrs. split; [exact W|]. intros doc D. unfold read_bars. rewrite read_element_flat, D. clear doc D. cbv zeta.
  assert (Get : forall i, i < length ms -> exists l r a, nth_error ms i = Some (repeat (l, r) (S n)) /\ nth_error attrs i = Some a /\ known l /\ known r /\ l <> Some RepeatEnd /\ r <> Some RepeatStart /\
    bars_attr r (left_of ms (S i) 0) = Some (snd a) /\ match i with O => bar_attr l = Some (fst a) | S _ => fst a = [] end /\
    nth_error (fst (read_flat (S n) None attrs)) i = Some (repeat (or_else (match i with O => None | S j => match nth_error attrs j with Some b => nxt_of b | None => None end end) (lft_of a), rgt_of a) (S n))).
  { intros i Hi. destruct (nth_error ms i) as [m|] eqn:E; [|apply nth_error_None in E; exfalso; apply (PeanoNat.Nat.lt_irrefl i); eapply PeanoNat.Nat.lt_le_trans; eassumption].
    destruct (U m (nth_error_In _ _ E)) as (l & r & -> & K1 & K2 & K3 & K4). destruct (A i l r n E) as (a & N1 & N2 & N3). exists l, r, a. repeat split; try assumption.
    exact (read_at (S n) attrs None i a N1). }
  assert (LB : length (fst (read_flat (S n) None attrs)) = length ms) by (rewrite read_length; exact L).
  split; [exact LB|]. split.
  { intros i Hi. destruct (Get i Hi) as (l & r & a & _ & _ & _ & _ & _ & _ & _ & _ & R). eexists. split; [exact R|]. apply repeat_length. }
  split.
  - intros i k Hi Hk. destruct (Get i Hi) as (l & r & a & N1 & N2 & K1 & K2 & K3 & K4 & B & F & R).
    assert (RO : right_of (fst (read_flat (S n) None attrs)) i k = rgt_of a) by (unfold right_of; rewrite R, (nth_repeat_in _ _ _ Hk); reflexivity).
    assert (RM : right_of ms i k = r) by (unfold right_of; rewrite N1, (nth_repeat_in _ _ _ Hk); reflexivity).
    assert (LM : left_of ms (S i) k = left_of ms (S i) 0 /\ known (left_of ms (S i) 0) /\ left_of ms (S i) 0 <> Some RepeatEnd).
    { unfold left_of. destruct (nth_error ms (S i)) as [m|] eqn:E; [|split; [reflexivity|split; [exact I|discriminate]]].
      destruct (U m (nth_error_In _ _ E)) as (l2 & r2 & -> & Q1 & Q2 & Q3 & Q4). rewrite !nth_repeat_in by (assumption || apply PeanoNat.Nat.lt_0_succ). auto. }
    destruct LM as (LM & LK & LN).
    assert (LO : left_of (fst (read_flat (S n) None attrs)) (S i) k = nxt_of a).
    { destruct (Compare_dec.lt_dec (S i) (length ms)) as [Hs|Hs].
      - destruct (Get (S i) Hs) as (l2 & r2 & a2 & _ & _ & _ & _ & _ & _ & _ & F2 & R2). unfold left_of. rewrite R2, (nth_repeat_in _ _ _ Hk), N2. cbn [fst]. destruct a2 as [f2 s2]. cbn [fst] in F2. subst f2. rewrite lft_of_empty. apply or_else_None.
      - unfold left_of. replace (nth_error (fst (read_flat (S n) None attrs)) (S i)) with (@None (list staff_measure)) by (symmetry; apply nth_error_None; rewrite LB; apply Compare_dec.not_gt; exact Hs).
        assert (Z : left_of ms (S i) 0 = None) by (unfold left_of; replace (nth_error ms (S i)) with (@None (list staff_measure)) by (symmetry; apply nth_error_None; apply Compare_dec.not_gt; exact Hs); reflexivity).
        rewrite Z in B. destruct a as [f s]. cbn [snd] in B. destruct r as [[[]| |]|]; try contradiction K2; try (exfalso; apply K4; reflexivity); injection B as <-; reflexivity. }
    rewrite RO, RM, LO, LM. destruct (boundary r _ K2 LK) as (s & B' & P). rewrite B in B'. injection B' as <-. destruct a as [f s]. cbn [snd] in *. specialize (P f). unfold rgt_of, nxt_of. destruct (makeBarlines (f, s)) as [[lf rg] nx]. cbn [fst snd]. destruct P as [P1 P2]. split; [exact P1|].
    intros ND. destruct (P2 ND) as [P3 P4]. split; [rewrite P3|rewrite P4]; tauto.
  - intros k Hk Hp. destruct (Get 0 Hp) as (l & r & a & N1 & N2 & K1 & K2 & K3 & K4 & B & F & R).
    unfold left_of. rewrite R, N1, !(nth_repeat_in _ _ _ Hk). cbn [fst or_else]. destruct (first_left l K1 K3) as (s & S1 & S2). rewrite S1 in F. injection F as F. destruct a as [f y]. cbn [fst] in F. subst f. specialize (S2 y). unfold lft_of. destruct (makeBarlines (s, y)) as [[lf rg] nx] eqn:E. cbn [fst]. split; [exact S2|].
    assert (forall o, o = Some RepeatStart <-> drawn None o = SStart) as DS by (intros [[[]| |]|]; split; intros X; try discriminate X; reflexivity).
    rewrite !DS, S2. tauto.
Qed.

(** ** Statements *)

(** Whatever sections and endings there are, what is drawn at the start of the score, between
    measures, and at the end is the same after export and re-import, in all staves. *)
Theorem C87_drawn_partial : forall n ms, 0 < n -> uniform n ms ->
  exists attrs, write_bars ms = Some attrs /\ forall doc, measures_in doc = attrs ->
    length (read_bars n doc) = length ms /\
    forall i k, i <= length ms -> 0 < length ms -> k < n -> drawn_before (read_bars n doc) i k = drawn_before ms i k.
Proof.
  intros [|n] ms Hn U; [inversion Hn|]. destruct (barlines n ms U) as (attrs & W & P). exists attrs. split; [exact W|]. intros doc D. destruct (P doc D) as (P1 & _ & P2 & P3). split; [exact P1|].
  intros i k Hi H0 Hk. destruct i as [|i]; [apply P3; assumption|]. apply P2; assumption.
Qed.
Print Assumptions C87_drawn_partial.

(** Every repeat sign comes back on its side, unless an invisible barline stands at the same
    place; and there are no other repeat signs. *)
Theorem C87_repeats_partial : forall n ms attrs doc, 0 < n -> uniform n ms -> write_bars ms = Some attrs -> measures_in doc = attrs ->
  forall i k, i < length ms -> k < n ->
    (drawn_before ms (S i) k <> SNothing -> (right_of (read_bars n doc) i k = Some RepeatEnd <-> right_of ms i k = Some RepeatEnd)) /\
    (drawn_before ms i k <> SNothing -> (left_of (read_bars n doc) i k = Some RepeatStart <-> left_of ms i k = Some RepeatStart)).
Proof.
  intros [|n] ms attrs doc Hn U W D i k Hi Hk; [inversion Hn|]. destruct (barlines n ms U) as (attrs' & W' & P). rewrite W in W'. injection W' as <-. destruct (P doc D) as (_ & _ & P2 & P3). split.
  - intros N. apply (P2 i k Hi Hk). exact N.
  - intros N. destruct i as [|i]; [apply P3; assumption|]. apply (P2 i k); [|exact Hk|exact N]. apply PeanoNat.Nat.lt_succ_l. exact Hi.
Qed.
Print Assumptions C87_repeats_partial.

(** A repeated section with two endings, then a double bar and a dotted one, in two staves. *)
Definition bars_ex : list (list staff_measure) :=
  [repeat (Some RepeatStart, None) 2; repeat (None, Some RepeatEnd) 2; repeat (None, Some RepeatEnd) 2;
   repeat (Some RepeatStart, Some (Bar Double)) 2; repeat (Some (Bar Dotted), Some (Bar Final)) 2].
Example C87_nonvacuous : uniform 2 bars_ex /\
  exists a b c d e, write_bars bars_ex = Some [a; b; c; d; e] /\
    read_bars 2 (ESection [EMeasure a; ESection [EMeasure b]; ESection [EMeasure c]; EMeasure d; EMeasure e]) =
    [repeat (Some RepeatStart, Some (Bar Regular)) 2; repeat (None, Some RepeatEnd) 2; repeat (None, Some RepeatEnd) 2;
     repeat (Some RepeatStart, Some (Bar Double)) 2; repeat (None, Some (Bar Final)) 2].
Proof.
  split.
  - intros m I. repeat (destruct I as [<-|I]; [eexists; eexists; split; [reflexivity|]; repeat split; discriminate|]). destruct I.
  - do 5 eexists. split; vm_compute; reflexivity.
Qed.

(** The claim for all barlines.  It is false. *)
Definition drawn_survives : Prop := forall n ms, 0 < n -> (forall m, In m ms -> length m = n) ->
  exists attrs, write_bars ms = Some attrs /\ forall doc, measures_in doc = attrs ->
    forall i k, i <= length ms -> 0 < length ms -> k < n -> drawn_before (read_bars n doc) i k = drawn_before ms i k.

(** Barlines of one staff, in a score with a number of measures. *)
Definition drawn_lost (n : nat) (ms : list (list staff_measure)) (i k : nat) : Prop :=
  (forall m, In m ms -> length m = n) /\ i <= length ms /\ k < n /\ exists attrs, write_bars ms = Some attrs /\ drawn_before (read_bars n (ESection (map EMeasure attrs))) i k <> drawn_before ms i k.

(** Ticks, short and double heavy barlines stop the export; a heavy barline comes back regular, and
    so does a heavy-light one; barlines that only a lower staff has are lost, and those of the top
    staff come back in all staves; a repeat that starts on the right of the last measure is lost;
    an invisible barline hides a repeat at the same place. *)
Theorem C87_refuted :
  (forall b, In b [Tick; Short; HeavyHeavy] -> write_bars [[(None, Some (Bar b))]] = None) /\
  drawn_lost 1 [[(None, Some (Bar Heavy))]] 1 0 /\
  drawn_lost 1 [[(None, Some (Bar HeavyLight))]] 1 0 /\
  drawn_lost 2 [[(None, None); (None, Some (Bar Double))]] 1 1 /\
  drawn_lost 2 [[(None, Some (Bar Double)); (None, None)]] 1 1 /\
  drawn_lost 1 [[(None, Some RepeatStart)]] 1 0 /\
  (exists attrs, write_bars [[(None, Some RepeatEnd)]; [(Some (Bar Invisible), None)]] = Some attrs /\ right_of (read_bars 1 (ESection (map EMeasure attrs))) 0 0 = Some (Bar Invisible)) /\
  ~ drawn_survives.
Proof.
  split; [intros b [<-|[<-|[<-|[]]]]; reflexivity|].
  repeat match goal with |- drawn_lost _ _ _ _ /\ _ => split; [split; [intros m I; repeat (destruct I as [<-|I]; [reflexivity|]); destruct I|]; split; [cbn; auto|]; split; [auto|]; eexists; split; [vm_compute; reflexivity|vm_compute; discriminate]|] end.
  split; [eexists; split; vm_compute; reflexivity|].
  intros H. destruct (H 1 [[(None, Some (Bar Tick))]]) as (attrs & W & _); [auto|intros m [<-|[]]; reflexivity|]. discriminate W.
Qed.
Print Assumptions C87_refuted.

(** Property theorems C43, C44 and C60: dates. *)
From Verif Require Import PyStr PyStrProofs DateModel DateProofs.

Definition exactly (v : Z) : fld := Some (v, None).

(** C43.  The full statement is [forall p, reading (writing p) = Some p].  It is
    false: a zero hour is written as nothing.  So is the choice 'and' between
    dates, which is read back as 'or'. *)
Theorem C43_dates_refuted : exists p q,
  m21DatePrimitiveFromString (stringFromM21DateObject p) = Some q /\ p <> q.
Proof.
  exists (DateSingle (mkDate (exactly 1820) (exactly 5) (exactly 6) (exactly 0) (exactly 30) (exactly 15)) Certain),
         (DateSingle (mkDate (exactly 1820) (exactly 5) (exactly 6) None (exactly 30) (exactly 15)) Certain).
  split; [vm_compute; reflexivity|]. discriminate.
Qed.
Print Assumptions C43_dates_refuted.
Theorem C43_selection_refuted : exists p q,
  m21DatePrimitiveFromString (stringFromM21DateObject p) = Some q /\ p <> q.
Proof.
  exists (DateSelection [mkDate (exactly 1820) None None None None None; mkDate (exactly 1821) None None None None None] And),
         (DateSelection [mkDate (exactly 1820) None None None None None; mkDate (exactly 1821) None None None None None] Or).
  split; [vm_compute; reflexivity|]. discriminate.
Qed.
Print Assumptions C43_selection_refuted.

(** C43, part.  [prim_writable]: every date has at least one value; values are
    not zero, only years are negative, seconds are below 60; relative dates are
    'prior' or 'after'; selections are 'or' between at least two dates.  Error
    marks on any value and on the whole date are kept.  Missing: zeros, the
    relevances 'onorbefore', 'onorafter' and 'and', selections of fewer than two. *)
Theorem C43_dates_partial : forall p, prim_writable p ->
  m21DatePrimitiveFromString (stringFromM21DateObject p) = Some p.
Proof. exact prim_read_back. Qed.
Print Assumptions C43_dates_partial.

Example C43_nonvacuous :
  let a := mkDate (Some (-44, Some Approximate))%Z (exactly 3) (exactly 15) None None None in
  let b := mkDate (exactly 1820) None None (exactly 7) (exactly 5) (Some (59, Some Uncertain))%Z in
  prim_writable (DateBetween a b) /\ prim_writable (DateSingle a SUncertain) /\
  prim_writable (DateSelection [a; b] Or) /\ prim_writable (DateRelative b After) /\
  stringFromM21DateObject (DateBetween a b) = S_ "@44x/03/15-1820///07:05:59z".
Proof.
  cbn zeta.
  assert (W : forall d, (forall i, i < 6 -> writable i (nth i (fields d) None)) -> (exists i, nth i (fields d) None <> None) -> date_writable d).
  { intros d H K. split; [|exact K]. intros i. destruct (Nat.lt_ge_cases i 6) as [L|L]; [auto|]. rewrite nth_overflow by exact L. exact I. }
  assert (WA : date_writable (mkDate (Some (-44, Some Approximate))%Z (exactly 3) (exactly 15) None None None)).
  { apply W; [|exists 0; discriminate]. intros i L. do 6 (destruct i as [|i]; [cbn; repeat split; try lia; intros; lia|]). lia. }
  assert (WB : date_writable (mkDate (exactly 1820) None None (exactly 7) (exactly 5) (Some (59, Some Uncertain))%Z)).
  { apply W; [|exists 0; discriminate]. intros i L. do 6 (destruct i as [|i]; [cbn; repeat split; try lia; intros; lia|]). lia. }
  split; [split; assumption|]. split; [exact WA|]. split; [split; [constructor; [exact WA|constructor; [exact WB|constructor]]|split; [reflexivity|cbn; lia]]|].
  split; [split; [exact WB|right; reflexivity]|]. vm_compute. reflexivity.
Qed.

(** C44.  The full statement is [forall edtf d, m21DateFromIsoDate
    (isoDateFromM21Date edtf d) = Some d].  It is false for a date with a time
    (the hour is written in the date part) and for a year before the common era
    (nothing is read back). *)
Theorem C44_iso_time_refuted : exists d d',
  m21DateFromIsoDate (isoDateFromM21Date false d) = Some d' /\ d <> d'.
Proof.
  exists (mkDate (exactly 2020) (exactly 1) (exactly 2) (exactly 3) (exactly 4) (exactly 5)),
         (mkDate (exactly 2020) (exactly 1) (exactly 2) None None None).
  split; [vm_compute; reflexivity|]. discriminate.
Qed.
Print Assumptions C44_iso_time_refuted.
Theorem C44_iso_bce_refuted : exists d, m21DateFromIsoDate (isoDateFromM21Date false d) = None.
Proof. exists (mkDate (exactly (-44)) (exactly 3) None None None None). vm_compute. reflexivity. Qed.
Print Assumptions C44_iso_bce_refuted.

(** C44, part: dates without a time, with a year, no day without a month, no
    negative number; marked values only in the extended format.  Missing: times,
    negative years, dates without a year. *)
Theorem C44_iso_partial : forall edtf d, calendar d -> edtf = true \/ unmarked d ->
  m21DateFromIsoDate (isoDateFromM21Date edtf d) = Some d.
Proof. intros edtf d C E. apply (iso_read_back edtf d C E). Qed.
Print Assumptions C44_iso_partial.

Example C44_nonvacuous : calendar (mkDate (exactly 987) (Some (0, Some Approximate))%Z (exactly 31) None None None) /\
  isoDateFromM21Date true (mkDate (exactly 987) (Some (0, Some Approximate))%Z (exactly 31) None None None) = S_ "0987-00~-31".
Proof.
  split; [|vm_compute; reflexivity]. repeat split; try discriminate. intros i v e H.
  do 6 (destruct i as [|i]; [cbn in H; try discriminate H; injection H as <- <-; lia|]). destruct i; discriminate H.
Qed.

(** C60.  The full statement is that reading the extended date text of any date
    object gives the object.  It is false: a doubtful day is read as a doubtful
    date, and a date approximate as a whole is written as an exact one. *)
Theorem C60_edtf_refuted : exists p s q,
  edtfFromM21DatePrimitive p = Some s /\ m21DatePrimitiveFromIsoDate s = Some q /\ p <> q.
Proof.
  exists (DateSingle (mkDate (exactly 1820) (exactly 5) (Some (6, Some Uncertain))%Z None None None) Certain), (S_ "1820-05-06?"),
         (DateSingle (mkDate (exactly 1820) (exactly 5) (exactly 6) None None None) SUncertain).
  split; [vm_compute; reflexivity|]. split; [vm_compute; reflexivity|]. discriminate.
Qed.
Print Assumptions C60_edtf_refuted.
Theorem C60_edtf_relevance_refuted : exists p s q,
  edtfFromM21DatePrimitive p = Some s /\ m21DatePrimitiveFromIsoDate s = Some q /\ p <> q.
Proof.
  exists (DateSingle (mkDate (exactly 1820) None None None None None) SApproximate), (S_ "1820"),
         (DateSingle (mkDate (exactly 1820) None None None None None) Certain).
  split; [vm_compute; reflexivity|]. split; [vm_compute; reflexivity|]. discriminate.
Qed.
Print Assumptions C60_edtf_relevance_refuted.

(** C60, part.  [prim_iso]: dates as in C44; a single date is exact as a whole
    and its last value is unmarked; relative dates are 'prior' or 'after'.
    Missing: the other relevances. *)
Theorem C60_edtf_partial : forall p, prim_iso p ->
  exists s, edtfFromM21DatePrimitive p = Some s /\ m21DatePrimitiveFromIsoDate s = Some p.
Proof. exact edtf_read_back. Qed.
Print Assumptions C60_edtf_partial.

Example C60_nonvacuous :
  let a := mkDate (exactly 1820) (Some (5, Some Uncertain))%Z (exactly 6) None None None in
  prim_iso (DateSingle a Certain) /\ prim_iso (DateSelection [a; a] And) /\
  edtfFromM21DatePrimitive (DateSelection [a; a] And) = Some (S_ "{1820-05?-06,1820-05?-06}").
Proof.
  cbn zeta. assert (C : calendar (mkDate (exactly 1820) (Some (5, Some Uncertain))%Z (exactly 6) None None None)).
  { repeat split; try discriminate. intros i v e H.
    do 6 (destruct i as [|i]; [cbn in H; try discriminate H; injection H as <- <-; lia|]). destruct i; discriminate H. }
  split; [split; [exact C|split; reflexivity]|]. split; [constructor; [exact C|constructor; [exact C|constructor]]|]. vm_compute. reflexivity.
Qed.

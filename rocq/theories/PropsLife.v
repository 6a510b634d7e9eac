(** C124, C125: ranges of dates, and a composer's dates of birth and death. *)
From Verif Require Import PyStr PyStrProofs DateModel DateProofs LifeModel LifeProofs.

(** C124: the text of a range of date objects is read as the same two objects. *)
Theorem C124_range_partial p q : prim_writable p -> prim_writable q ->
  rangeFromString (stringFromRange p q) = (Some p, Some q).
Proof. apply range_read. Qed.
Print Assumptions C124_range_partial.

(** Reading a Humdrum file leaves such a text as it is. *)
Theorem C124_kept_partial p q : prim_writable p -> prim_writable q -> normalizedDate (stringFromRange p q) = stringFromRange p q.
Proof.
  intros P Q. unfold normalizedDate. rewrite range_whole, range_read by assumption.
  destruct p as [a []| | | ]; try reflexivity. destruct q as [b []| | | ]; reflexivity.
Qed.
Print Assumptions C124_kept_partial.

(** A text is taken for one range of dates only if both ends are plain dates. *)
Theorem C124_whole_partial p q : prim_writable p -> prim_writable q ->
  forall r, m21DatePrimitiveFromString (stringFromRange p q) = Some r <->
    exists a b, p = DateSingle a Certain /\ q = DateSingle b Certain /\ r = DateBetween a b.
Proof.
  intros P Q r. rewrite range_whole by assumption. split.
  - destruct p as [a []| | | ]; try discriminate. destruct q as [b []| | | ]; try discriminate. intros E. injection E as <-. exists a, b. repeat split.
  - intros (a & b & -> & -> & ->). reflexivity.
Qed.
Print Assumptions C124_whole_partial.

Definition yearly (y : Z) : date := mkDate (Some (y, None)) None None None None None.
Definition marked_year (y : Z) (e : derr) : date := mkDate (Some (y, Some e)) None None None None None.

(** A range that ends in the year 0 is not read back: its end is lost. *)
Theorem C124_range_refuted : exists p q, rangeFromString (stringFromRange p q) = (Some p, None).
Proof. exists (DateSingle (yearly 5) SApproximate), (DateSingle (yearly 0) Certain). vm_compute. reflexivity. Qed.
Print Assumptions C124_range_refuted.
(** "On or before" becomes "before", "and" becomes "or". *)
Theorem C124_relevance_refuted : exists p q p' q', rangeFromString (stringFromRange p q) = (Some p', Some q') /\ p <> p' /\ q <> q'.
Proof.
  exists (DateRelative (yearly 1525) OnOrBefore), (DateSelection [yearly 1593; yearly 1594] And),
    (DateRelative (yearly 1525) Prior), (DateSelection [yearly 1593; yearly 1594] Or). split; [vm_compute; reflexivity|]. split; discriminate.
Qed.
Print Assumptions C124_relevance_refuted.

(** C125: birth and death, written to MEI and read again. *)
Theorem C125_life_partial p q : prim_writable p -> prim_writable q -> prim_life p -> prim_life q ->
  exists x y, birthAndDeathWritten (stringFromRange p q) = (Some x, Some y)
    /\ m21DatePrimitiveFromIsoDate x = Some p /\ m21DatePrimitiveFromIsoDate y = Some q
    /\ birthAndDeathRead (Some x) (Some y) = Some (stringFromRange p q).
Proof.
  intros P Q LP LQ. destruct (life_round p q P Q LP LQ) as (x & y & W & RX & RY). exists x, y. split; [exact W|]. split; [exact RX|].
  split; [exact RY|]. unfold birthAndDeathRead. rewrite RX, RY. reflexivity.
Qed.
Print Assumptions C125_life_partial.

(** A date of birth alone is written, but not read: both have to be there. *)
Theorem C125_birth_only_refuted : exists p s, stringFromM21DateObject p = s /\
  birthAndDeathWritten s = (Some (S_ "1685"), None) /\ forall x, birthAndDeathRead (Some x) None = None.
Proof. exists (DateSingle (yearly 1685) Certain). eexists. split; [reflexivity|]. split; [vm_compute; reflexivity|]. reflexivity. Qed.
Print Assumptions C125_birth_only_refuted.
(** A single relative date is divided at its slash: "before 1594" is written as
    born in ".." and died in exactly 1594, and then not read at all. *)
Theorem C125_relative_refuted : exists p x y, birthAndDeathWritten (stringFromM21DateObject p) = (Some x, Some y) /\
  x = S_ ".." /\ m21DatePrimitiveFromIsoDate y = Some (DateSingle (yearly 1594) Certain) /\ birthAndDeathRead (Some x) (Some y) = None.
Proof. exists (DateRelative (yearly 1594) Prior), (S_ ".."), (S_ "1594"). vm_compute. repeat split. Qed.
Print Assumptions C125_relative_refuted.
(** A mark on the year becomes a mark on the whole date. *)
Theorem C125_mark_refuted : exists p q x y s, prim_writable p /\ prim_writable q /\
  birthAndDeathWritten (stringFromRange p q) = (Some x, Some y) /\ birthAndDeathRead (Some x) (Some y) = Some s /\ s <> stringFromRange p q.
Proof.
  exists (DateSingle (marked_year 1685 Approximate) Certain), (DateSingle (yearly 1750) Certain), (S_ "1685~"), (S_ "1750"), (S_ "~1685-1750").
  assert (W : forall y e, (0 < y)%Z -> date_writable (mkDate (Some (y, e)) None None None None None)).
  { intros y e H. split; [|exists 0; discriminate]. intros i. destruct i as [|[|[|[|[|[|i]]]]]]; cbn; try exact I; [|destruct i; exact I].
    split; [lia|]. split; [congruence|discriminate]. }
  split; [apply W; lia|]. split; [apply W; lia|]. vm_compute. repeat split. discriminate.
Qed.
Print Assumptions C125_mark_refuted.

(** ** The hypotheses can be met *)
Example C125_nonvacuous :
  let p := DateBetween (yearly 1525) (yearly 1526) in
  let q := DateSingle (mkDate (Some (1594, None)) (Some (2, None)) (Some (2, None)) None None None)%Z SApproximate in
  prim_writable p /\ prim_writable q /\ prim_life p /\ prim_life q /\
  stringFromRange p q = S_ "1525^1526-~1594/02/02" /\
  birthAndDeathWritten (stringFromRange p q) = (Some (S_ "[1525..1526]"), Some (S_ "1594-02-02~")).
Proof.
  assert (W : forall y, (0 < y)%Z -> date_writable (yearly y)).
  { intros y H. split; [|exists 0; discriminate]. intros i. destruct i as [|[|[|[|[|[|i]]]]]]; cbn; try exact I; [|destruct i; exact I].
    split; [lia|]. split; [congruence|discriminate]. }
  assert (C : forall y, (0 < y)%Z -> calendar (yearly y)).
  { intros y H. do 3 (split; [reflexivity|]). split; [discriminate|]. split; [intros D; destruct D; reflexivity|]. intros i v e. destruct i as [|[|[|[|[|[|[|i]]]]]]]; cbn; try discriminate. intros E. injection E as <- _. lia. }
  cbv zeta. split; [split; apply W; lia|]. split.
  { split; [|exists 0; discriminate]. intros i. destruct i as [|[|[|[|[|[|i]]]]]]; cbn; try exact I; try (split; [lia|split; [lia|lia]]); destruct i; exact I. }
  split; [split; apply C; lia|]. split.
  { split; [|reflexivity]. do 3 (split; [reflexivity|]). split; [discriminate|]. split; [discriminate|]. intros i v e. destruct i as [|[|[|[|[|[|[|i]]]]]]]; cbn; try discriminate; intros E; injection E as <- _; lia. }
  vm_compute. split; reflexivity.
Qed.

(** Property theorems C96: repeat endings of an imported Humdrum file. *)
From Verif Require Import PyStr PyStrProofs LayoutModel TextModel SpineModel ImportModel ImportProofs EndingModel EndingProofs.
From Coq Require Import Lia.

(** C96.  A measure is in a repeat bracket with number [n] exactly if the label in
    force at its first note is the name of the section followed by the number
    [n]; it is in one bracket only; a bracket covers measures that follow each
    other; neighbouring measures of ending [n] are in the same bracket; and the
    import does not fail.  Assumed: no label with a number merely begins like the
    name of another section, and no ending has number 0. *)
Theorem C96_endings_partial : forall lines ms,
  importedMeasures lines = Some ms -> clear_names lines ->
  (forall s e t, In (s, e) ms -> ~ ending_of lines s t 0) ->
  exists brs, repeatBrackets lines = Some brs /\
    (forall k s e n, nth_error ms k = Some (s, e) ->
       ((exists t, ending_of lines s t n) <-> exists j ks, nth_error brs j = Some (n, ks) /\ In k ks)) /\
    (forall j j' n n' ks ks' k, nth_error brs j = Some (n, ks) -> nth_error brs j' = Some (n', ks') ->
       In k ks -> In k ks' -> j = j') /\
    (forall j n ks, nth_error brs j = Some (n, ks) -> exists a len, ks = seq a len /\ 0 < len /\ a + len <= length ms) /\
    (forall k s e s' e' t t' n, nth_error ms k = Some (s, e) -> nth_error ms (S k) = Some (s', e') ->
       ending_of lines s t n -> ending_of lines s' t' n ->
       exists j ks, nth_error brs j = Some (n, ks) /\ In k ks /\ In (S k) ks).
Proof.
  intros lines ms H CN NZ. unfold repeatBrackets. rewrite H.
  set (es := map (fun m => endingNumber lines (fst m)) ms).
  assert (St : forall k s e, nth_error ms k = Some (s, e) -> s < length lines).
  { intros k s e K. eapply imported_starts; [exact H|]. eapply nth_error_In. exact K. }
  assert (Nth : forall k s e, nth_error ms k = Some (s, e) -> nth k es None = endingNumber lines s).
  { intros k s e K. apply nth_error_nth. unfold es. rewrite nth_error_map, K. reflexivity. }
  destruct (brackets_spec es) as (st & L & A & B & C).
  { intros x X. unfold es in X. apply in_map_iff in X. destruct X as ([s e] & <- & I). cbn [fst].
    intros Q. apply endingNumber_spec in Q; [|eapply imported_starts; eassumption|exact CN].
    destruct Q as (t & Q). exact (NZ s e t I Q). }
  rewrite L. cbn [option_map]. exists (b_brackets st). split; [reflexivity|].
  assert (LE : length es = length ms) by apply map_length.
  split; [|split; [|split]].
  - intros k s e n K. rewrite <- endingNumber_spec by (try exact CN; eapply St; exact K).
    rewrite <- (Nth k s e K). split.
    + intros Q. exact (B k n Q).
    + intros (j & ks & J & I). destruct (A j n ks J) as (a & len & -> & Hl & He & Hm & _). apply Hm. apply in_seq in I. lia.
  - intros j j' n n' ks ks' k J J' I I'. destruct (Nat.lt_trichotomy j j') as [Q|[Q|Q]]; [|exact Q|].
    + pose proof (C j j' n n' ks ks' k k Q J J' I I'). lia.
    + pose proof (C j' j n' n ks' ks k k Q J' J I' I). lia.
  - intros j n ks J. destruct (A j n ks J) as (a & len & E & Hl & He & _). exists a, len. rewrite LE in He. auto.
  - intros k s e s' e' t t' n K K' En En'.
    assert (Q : nth k es None = Some n).
    { rewrite (Nth k s e K). apply endingNumber_spec; [eapply St; exact K|exact CN|exists t; exact En]. }
    assert (Q' : nth (S k) es None = Some n).
    { rewrite (Nth (S k) s' e' K'). apply endingNumber_spec; [eapply St; exact K'|exact CN|exists t'; exact En']. }
    destruct (B k n Q) as (j & ks & J & I). exists j, ks. split; [exact J|]. split; [exact I|].
    destruct (A j n ks J) as (a & len & -> & Hl & He & Hm & Ml & Mr). apply in_seq in I. apply in_seq.
    destruct (Nat.eq_dec (S k) (a + len)) as [X|X]; [|lia]. exfalso. rewrite <- X in Mr. destruct Mr as [Mr|Mr]; [|congruence].
    rewrite Mr, nth_overflow in Q' by lia. discriminate.
Qed.
Print Assumptions C96_endings_partial.

(** A section [A] with two endings, of one and two measures. *)
Definition ex96 : list str :=
  map S_ ["**kern"; "*>[A,A1,A,A2]"; "*>A"; "=1"; "1c"; "*>A1"; "=2"; "1d"; "=:|!"; "*>A2"; "1e"; "=4"; "1f"; "*>B"; "=5"; "1g"; "=="; "*-"]%string.
Example C96_nonvacuous :
  importedMeasures ex96 = Some [(0, 6); (6, 8); (8, 11); (11, 14); (14, 16)] /\
  repeatBrackets ex96 = Some [(1%N, [1]); (2%N, [2; 3])] /\ clear_names ex96 /\ ending_of ex96 6 (S_ "*>A1") 1 /\
  (forall s e t, In (s, e) [(0, 6); (6, 8); (8, 11); (11, 14); (14, 16)] -> ~ ending_of ex96 s t 0).
Proof.
  assert (CN : clear_names ex96).
  { intros j j' b t Lb Lt Nb Sb.
    assert (Lab : forall i u, labelled ex96 i u -> In u (map S_ ["*>A"; "*>A1"; "*>A2"; "*>B"]%string)).
    { intros i u U. unfold labelled in U. do 18 (destruct i as [|i]; [vm_compute in U; try discriminate; injection U as <-; vm_compute; tauto|]).
      rewrite nth_overflow in U by (vm_compute; lia). discriminate. }
    apply Lab in Lb. apply Lab in Lt. apply starts_with_app in Sb. destruct Sb as (d & Ed). exists d. split; [exact Ed|].
    cbn [map In] in Lb, Lt.
    destruct Lb as [<-|[<-|[<-|[<-|[]]]]]; try (vm_compute in Nb; discriminate);
      destruct Lt as [<-|[<-|[<-|[<-|[]]]]]; try discriminate; injection Ed as <-; vm_compute; auto. }
  split; [vm_compute; reflexivity|]. split; [vm_compute; reflexivity|]. split; [exact CN|].
  assert (E : endingNumber ex96 6 = Some 1%N) by (vm_compute; reflexivity).
  split.
  - apply endingNumber_spec in E; [|vm_compute; lia|exact CN]. destruct E as (t & b & d & E).
    assert (t = S_ "*>A1") as <-; [|exists b, d; exact E].
    destruct E as (E & _). apply section_force in E; [|vm_compute; lia]. vm_compute in E. injection E as <-. reflexivity.
  - intros s e t I En.
    assert (Q : endingNumber ex96 s = Some 0%N).
    { apply endingNumber_spec; [|exact CN|exists t; exact En]. cbn in I.
      repeat (destruct I as [I|I]; [injection I as <- <-; vm_compute; lia|]). destruct I. }
    cbn in I. repeat (destruct I as [I|I]; [injection I as <- <-; vm_compute in Q; discriminate|]). destruct I.
Qed.

(** An ending with number 0 makes the import fail. *)
Theorem C96_zero_refuted : exists lines ms, accepted lines /\ importedMeasures lines = Some ms /\ ms <> [] /\
  repeatBrackets lines = None.
Proof.
  exists (map S_ ["**kern"; "*>A"; "=1"; "1c"; "*>A0"; "=2"; "1d"; "=="; "*-"]%string), [(0, 5); (5, 7)].
  split; [apply accepted_check; vm_compute; reflexivity|]. split; [vm_compute; reflexivity|]. split; [discriminate|].
  vm_compute. reflexivity.
Qed.
Print Assumptions C96_zero_refuted.

(** The first endings of two sections are joined in one bracket if they follow
    each other. *)
Theorem C96_sections_refuted : exists lines ms brs s e s' e' t t' j n ks,
  accepted lines /\ importedMeasures lines = Some ms /\ repeatBrackets lines = Some brs /\
  nth_error ms 1 = Some (s, e) /\ nth_error ms 2 = Some (s', e') /\
  ending_of lines s t 1 /\ ending_of lines s' t' 1 /\ t <> t' /\
  nth_error brs j = Some (n, ks) /\ In 1 ks /\ In 2 ks.
Proof.
  set (f := map S_ ["**kern"; "*>A"; "=1"; "1c"; "*>A1"; "=2"; "1d"; "=:|!"; "*>B"; "*>B1"; "1e"; "=="; "*-"]%string).
  exists f, [(0, 5); (5, 7); (7, 11)], [(1%N, [1; 2])], 5, 7, 7, 11, (S_ "*>A1"), (S_ "*>B1"), 0, 1%N, [1; 2].
  split; [apply accepted_check; vm_compute; reflexivity|]. split; [vm_compute; reflexivity|]. split; [vm_compute; reflexivity|].
  do 2 (split; [reflexivity|]).
  split; [|split; [|split; [discriminate|split; [reflexivity|split; cbn; auto]]]].
  - exists (S_ "*>A"), (S_ "1"). split; [apply section_force; [vm_compute; lia|vm_compute; reflexivity]|].
    split; [apply name_force; [vm_compute; lia|vm_compute; reflexivity]|]. repeat split; discriminate.
  - exists (S_ "*>B"), (S_ "1"). split; [apply section_force; [vm_compute; lia|vm_compute; reflexivity]|].
    split; [apply name_force; [vm_compute; lia|vm_compute; reflexivity]|]. repeat split; discriminate.
Qed.
Print Assumptions C96_sections_refuted.

(** A section [Alt2] after a section [A] is taken for the second ending of [A]. *)
Theorem C96_names_refuted : exists lines ms brs s e t j n ks,
  accepted lines /\ importedMeasures lines = Some ms /\ repeatBrackets lines = Some brs /\
  nth_error ms 1 = Some (s, e) /\ section_in_force lines s t /\ t = S_ "*>Alt2" /\
  (forall m, ~ ending_of lines s t m) /\ nth_error brs j = Some (n, ks) /\ In 1 ks.
Proof.
  set (f := map S_ ["**kern"; "*>A"; "=1"; "1c"; "*>Alt2"; "=2"; "1d"; "=="; "*-"]%string).
  exists f, [(0, 5); (5, 7)], [(2%N, [1])], 5, 7, (S_ "*>Alt2"), 0, 2%N, [1].
  split; [apply accepted_check; vm_compute; reflexivity|]. split; [vm_compute; reflexivity|]. split; [vm_compute; reflexivity|].
  split; [reflexivity|]. split; [apply section_force; [vm_compute; lia|vm_compute; reflexivity]|]. split; [reflexivity|].
  split; [|split; [reflexivity|left; reflexivity]].
  intros m (b & d & _ & Nb & Et & _ & Fd & _). apply name_force in Nb; [|vm_compute; lia].
  vm_compute in Nb. injection Nb as <-. vm_compute in Et. injection Et as <-. vm_compute in Fd. discriminate.
Qed.
Print Assumptions C96_names_refuted.

(** Property theorems C01-C04: rhythm texts. *)
From Verif Require Import PyStr RecipModel RecipProofs Pow2Proofs KernRecipProofs.
From Coq Require Import QArith.
Local Close Scope Q_scope.

(** C01.  Writing a duration as **recip text and reading it back returns it,
    whatever was parsed before at the default scale. *)
Theorem C01_recip_roundtrip : forall (h : list (str * Q)) (d : Q),
  (forall call, In call h -> snd call = 4%Q) -> (0 <= d)%Q ->
  exists x, fst (recipToDuration (run_recip h) (durationToRecip d) 4) = Some x /\ (x == d)%Q.
Proof. exact durationToRecip_roundtrip. Qed.
Print Assumptions C01_recip_roundtrip.

Example C01_nonvacuous :
  (forall call, In call [(S_ "4", 4%Q); (S_ "6%5", 4%Q)] -> snd call = 4%Q) /\ (0 <= 10 # 3)%Q
  /\ string_of_list_ascii (durationToRecip (10 # 3)) = "6%5"%string.
Proof. split; [|split; [discriminate|reflexivity]]. intros c [<-|[<-|[]]]; reflexivity. Qed.

(** C02.  Full statement: the result of a call depends only on its arguments.
    It is false: the memo table is keyed on the text alone. *)
Theorem C02_history_independent_refuted :
  exists (h : list (str * Q)) (recip : str) (scale x y : Q),
    fst (recipToDuration (run_recip h) recip scale) = Some x /\
    fst (recipToDuration [] recip scale) = Some y /\ ~ (x == y)%Q.
Proof.
  exists [(S_ "4", 1%Q)], (S_ "4"), 4%Q. do 2 eexists.
  split; [vm_compute; reflexivity|split; [vm_compute; reflexivity|discriminate]].
Qed.
Print Assumptions C02_history_independent_refuted.

(** What does hold: histories in which every call uses one and the same scale
    (as all calls inside the package do).  Missing: calls that mix scales. *)
Theorem C02_history_independent_partial : forall (scale : Q) (h : list (str * Q)) (recip : str),
  (forall call, In call h -> snd call = scale) ->
  fst (recipToDuration (run_recip h) recip scale) = fst (recipToDuration [] recip scale).
Proof. exact recip_history_independent. Qed.
Print Assumptions C02_history_independent_partial.

Example C02_nonvacuous : forall call, In call [(S_ "4.", 4%Q); (S_ "q", 4%Q)] -> snd call = 4%Q.
Proof. intros c [<-|[<-|[]]]; reflexivity. Qed.

(** C03.  The exporter's note rhythm reads back as the note's length.  Full
    statement: for every consistent duration.  It is false for dotted notes in
    a tuplet whose ratio is a power of two. *)
Theorem C03_note_rhythm_refuted :
  exists d, duration_consistent d /\
    exists x, recip_eval (kernRecipFromM21Duration d) 4 = Rhythm x
              /\ ~ (x == d_quarterLength d)%Q.
Proof.
  exists {| d_isGrace := false; d_linked := true; d_typeQL := 2; d_dots := 1;
            d_tuplets := [1 # 2]%Q; d_quarterLength := 3 # 2 |}.
  split.
  - split; [reflexivity|split; [discriminate|]]. intros _ m E. inversion E; subst.
    split; [discriminate|split; [discriminate|reflexivity]].
  - eexists. split; [vm_compute; reflexivity|discriminate].
Qed.
Print Assumptions C03_note_rhythm_refuted.

(** Missing from the full statement: exactly the durations described by
    [dotted_power_of_two_tuplet]. *)
Theorem C03_note_rhythm_partial : forall d,
  duration_consistent d -> ~ dotted_power_of_two_tuplet d ->
  exists x, recip_eval (kernRecipFromM21Duration d) 4 = Rhythm x /\ (x == d_quarterLength d)%Q.
Proof. exact kernRecip_reads. Qed.
Print Assumptions C03_note_rhythm_partial.

(** A dotted quarter in a triplet. *)
Example C03_nonvacuous :
  let d := {| d_isGrace := false; d_linked := true; d_typeQL := 1; d_dots := 1;
              d_tuplets := [2 # 3]%Q; d_quarterLength := 1 |} in
  duration_consistent d /\ ~ dotted_power_of_two_tuplet d /\
  string_of_list_ascii (kernRecipFromM21Duration d) = "6."%string.
Proof.
  cbv zeta. split; [|split].
  - split; [reflexivity|split; [discriminate|]]. intros _ m E. inversion E; subst.
    split; [discriminate|split; [discriminate|reflexivity]].
  - intros (_ & _ & m & E & HP). inversion E; subst. cbn [d_typeQL] in HP.
    apply isPowerOfTwo_spec in HP; [vm_compute in HP; discriminate|discriminate].
  - vm_compute. reflexivity.
Qed.

(** C04.  The **recip spine token of a line reads back as the line's duration. *)
Theorem C04_recip_spine : forall (h : list (str * Q)) (d : Q),
  (forall call, In call h -> snd call = 4%Q) -> (0 < d)%Q ->
  exists x, fst (recipToDuration (run_recip h) (createRecipTokenFromDuration d) 4) = Some x
            /\ (x == d)%Q.
Proof. exact createRecip_roundtrip. Qed.
Print Assumptions C04_recip_spine.

Example C04_nonvacuous :
  (0 < 7 # 2)%Q /\ string_of_list_ascii (createRecipTokenFromDuration (7 # 2)) = "8%7"%string.
Proof. split; [reflexivity|vm_compute; reflexivity]. Qed.

(** Property theorems C38, C39 and C59: splitting durations, undotted lengths. *)
From Verif Require Import PyStr RecipModel RecipProofs DurationModel DurationProofs.
From Coq Require Import QArith.
Local Close Scope Q_scope.

(** C38.  The split terminates, adds up, and consists of writable positive
    parts unless the length itself is returned. *)
Theorem C38_split : forall q : Q, (0 <= q)%Q ->
  exists l, getPowerOfTwoQuarterLengthsWithDotsAddingTo q = Some l /\
    (fold_right Qplus 0 l == q)%Q /\
    ((0 < q)%Q -> l = [q] \/
       Forall (fun x => 0 < x /\ exists z n, (n <= 3)%nat /\ x == 2 ^ z * (2 - (1 # 2) ^ Z.of_nat n))%Q l).
Proof.
  intros q H. destruct (getPowerOfTwoQuarterLengthsWithDotsAddingTo q) as [l|] eqn:S; [|destruct (split_total q S)].
  exists l. split; [reflexivity|]. destruct (split_adds _ _ S) as [T F]. split; [exact T|].
  intros P. destruct (F P) as [X|X]; [left; exact X|right].
  eapply Forall_impl; [|exact X]. intros x (P1 & z & n & L & E). split; [exact P1|]. exists z, n.
  split; [exact L|]. rewrite E, dot_factor_closed. reflexivity.
Qed.
Print Assumptions C38_split.

(** The fallback never happens for whole numbers of 8192nd notes: all parts are
    writable. *)
Theorem C38_split_binary : forall (q : Q) (m : Z), (0 < q)%Q -> (q == m # 2048)%Q ->
  exists l, getPowerOfTwoQuarterLengthsWithDotsAddingTo q = Some l /\
    (fold_right Qplus 0 l == q)%Q /\
    Forall (fun x => 0 < x /\ exists z n, (n <= 3)%nat /\ x == 2 ^ z * (2 - (1 # 2) ^ Z.of_nat n))%Q l.
Proof.
  intros q m P G. destruct (split_grid q P (ex_intro _ m G)) as (l & S & T & F). exists l.
  split; [exact S|]. split; [exact T|]. eapply Forall_impl; [|exact F]. intros x (P1 & z & n & L & E).
  split; [exact P1|]. exists z, n. split; [exact L|]. rewrite E, dot_factor_closed. reflexivity.
Qed.
Print Assumptions C38_split_binary.

(** The test for writable lengths, and the length without dots. *)
Theorem C38_writable_test : forall q : Q, (0 <= q)%Q ->
  (isPowerOfTwoWithDots q = true <-> exists z n, (n <= 3)%nat /\ (q == 2 ^ z * (2 - (1 # 2) ^ Z.of_nat n))%Q).
Proof.
  intros q H. rewrite isPowerOfTwoWithDots_spec by exact H. split; intros (z & n & L & E); exists z, n; (split; [exact L|]).
  - rewrite E, dot_factor_closed. reflexivity.
  - rewrite E, dot_factor_closed. reflexivity.
Qed.
Print Assumptions C38_writable_test.

Theorem C38_dots_found : forall (q b : Q) (n : nat), (0 <= q)%Q ->
  computeDurationNoDotsAndNumDots q = (b, Some n) ->
  n <= 3 /\ (exists z, b == 2 ^ z)%Q /\ (q == b * (2 - (1 # 2) ^ Z.of_nat n))%Q.
Proof.
  intros q b n H E. pose proof (noDots_spec q H) as X. rewrite E in X. destruct X as (L & [z Z] & Q).
  split; [exact L|]. split; [exists z; exact Z|]. rewrite Q, dot_factor_closed. reflexivity.
Qed.
Print Assumptions C38_dots_found.

Theorem C38_dots_not_found : forall (q b : Q), (0 <= q)%Q ->
  computeDurationNoDotsAndNumDots q = (b, None) ->
  b = q /\ ~ exists z n, (n <= 3)%nat /\ (q == 2 ^ z * (2 - (1 # 2) ^ Z.of_nat n))%Q.
Proof.
  intros q b H E. pose proof (noDots_spec q H) as X. rewrite E in X. destruct X as (L & W).
  split; [exact L|]. intros (z & n & L1 & Q). apply W. exists z, n. split; [exact L1|].
  rewrite Q, dot_factor_closed. reflexivity.
Qed.
Print Assumptions C38_dots_not_found.

Example C38_nonvacuous :
  getPowerOfTwoQuarterLengthsWithDotsAddingTo (5 # 1) = Some [4; 1]%Q /\
  getPowerOfTwoQuarterLengthsWithDotsAddingTo (10 # 3) = Some [10 # 3]%Q /\
  option_map (map Qred) (getPowerOfTwoQuarterLengthsWithDotsAddingTo (11 # 4)) = Some [2; 3 # 4]%Q /\
  computeDurationNoDotsAndNumDots (7 # 2) = (((7 # 2) * (4 # 7))%Q, Some 2) /\
  computeDurationNoDotsAndNumDots (5 # 2) = ((5 # 2)%Q, None) /\
  ((11 # 4) == 5632 # 2048)%Q.
Proof. repeat split; vm_compute; reflexivity. Qed.

(** C39.  Full statement: when the function returns, the lists add up to the
    crossing and to the rest.  It is false whenever music21 proposes the usual
    triplet for 1/3: splitting 5 quarters (whole + quarter) at 13/3 loses the
    whole note. *)
Ltac compute_closed :=
  match goal with
  | |- context [plain_side ?x] => let v := eval vm_compute in (plain_side x) in change (plain_side x) with v
  | |- context [isPowerOfTwoWithDots ?x] => let v := eval vm_compute in (isPowerOfTwoWithDots x) in change (isPowerOfTwoWithDots x) with v
  | |- context [getPowerOfTwoDurationsWithDotsAddingTo ?x] =>
      let v := eval vm_compute in (getPowerOfTwoDurationsWithDotsAddingTo x) in change (getPowerOfTwoDurationsWithDotsAddingTo x) with v
  | |- context [find_crossing ?i ?u ?x ?l] => let v := eval vm_compute in (find_crossing i u x l) in change (find_crossing i u x l) with v
  | |- context [tuplet_element ?i ?u ?x] => let v := eval vm_compute in (tuplet_element i u x) in change (tuplet_element i u x) with v
  end; cbn iota beta.
Theorem C39_crossing_refuted : forall tuplet_for : Q -> option (Z * Q),
  (forall x, (x == 1 # 3)%Q -> tuplet_for x = Some (3%Z, 2 # 3)%Q) ->
  exists fuel before after,
    crossing_split tuplet_for fuel 5 (13 # 3) = Crossed before after /\
    ~ (fold_right Qplus 0 (map ql_of before) == 13 # 3)%Q.
Proof.
  intros tf H. exists 3.
  assert (R : exists b a, crossing_split tf 3 5 (13 # 3) = Crossed b a /\ map (fun d => Qred (ql_of d)) b = [1 # 3]%Q).
  { cbn [crossing_split]. repeat compute_closed. cbn iota beta. rewrite H by reflexivity. repeat compute_closed. cbn iota beta.
    rewrite H by reflexivity. cbv zeta. repeat compute_closed. cbn iota beta.
    do 2 eexists. split; [reflexivity|]. vm_compute. reflexivity. }
  destruct R as (b & a & R & Q). exists b, a. split; [exact R|].
  destruct b as [|x [|y b]]; try discriminate Q. cbn [map fold_right].
  apply (f_equal (hd 0%Q)) in Q. cbn [map hd] in Q. rewrite <- (Qred_correct (ql_of x)). rewrite Q. discriminate.
Qed.
Print Assumptions C39_crossing_refuted.

(** What holds: lengths that need no tuplet (whole numbers of 8192nd notes).
    Missing: a crossing in a later part of a composite total, nested tuplets. *)
Theorem C39_crossing_partial : forall tuplet_for fuel (t c : Q) (m n : Z), (0 <= c <= t)%Q ->
  (t == m # 2048)%Q -> (c == n # 2048)%Q ->
  exists before after, crossing_split tuplet_for (S fuel) t c = Crossed before after /\
    (fold_right Qplus 0 (map ql_of before) == c)%Q /\
    (fold_right Qplus 0 (map ql_of after) == t - c)%Q /\
    Forall (fun d => snd d = 1 /\ 0 < fst d /\ writable (fst d))%Q (before ++ after).
Proof.
  intros tf fuel t c m n B M N.
  destruct (crossing_plain tf fuel t c B (ex_intro _ m M) (ex_intro _ n N)) as (o1 & o2 & C & S1 & S2).
  exists o1, o2. split; [exact C|]. split; [exact (side_ok_sum _ _ S1)|]. split; [exact (side_ok_sum _ _ S2)|].
  assert (F : forall q l, side_ok q l -> Forall (fun d => snd d = 1 /\ 0 < fst d /\ writable (fst d))%Q l).
  { intros q l (qs & -> & _ & F). apply Forall_forall. intros d D. apply in_map_iff in D. destruct D as (x & <- & D).
    rewrite Forall_forall in F. destruct (F x D). split; [reflexivity|]. split; assumption. }
  apply Forall_app. split; [exact (F _ _ S1)|exact (F _ _ S2)].
Qed.
Print Assumptions C39_crossing_partial.

(** And a total that is one note, split inside a tuplet of [a^k] notes whose
    multiplier [m] turns both lengths into binary ones. *)
Theorem C39_tuplet_partial : forall tuplet_for fuel (t c : Q) (a : Z) (m0 : Q) (k : nat) (e : Q) (a1 : Z) (m : Q) (n nt nc : Z),
  (0 <= c <= t)%Q -> writable t ->
  tuplet_for (1 # qden c)%Q = Some (a, m0) -> (0 < a)%Z -> k <= S fuel ->
  (forall j, j < k -> writable (t / inject_Z a ^ Z.of_nat j)) -> ~ writable (t / inject_Z a ^ Z.of_nat k) ->
  (e == t / inject_Z a ^ Z.of_nat k)%Q -> (forall e', (e' == e)%Q -> tuplet_for e' = Some (a1, m)) ->
  (0 < m)%Q -> (inject_Z (a ^ Z.of_nat k) * m == inject_Z n)%Q ->
  (t / m == nt # 2048)%Q -> (c / m == nc # 2048)%Q ->
  exists before after, crossing_split tuplet_for (S (S fuel)) t c = Crossed before after /\
    (fold_right Qplus 0 (map ql_of before) == c)%Q /\
    (fold_right Qplus 0 (map ql_of after) == t - c)%Q.
Proof.
  intros tf fuel t c a m0 k e a1 m n nt nc B W T0 A K H N E TE M I G1 G2.
  destruct (crossing_tuplet tf fuel t c a m0 k e a1 m n B W T0 A K H N TE E M I (ex_intro _ nt G1) (ex_intro _ nc G2))
    as (o1 & o2 & C & [[S1 S2]|[[S1 _] [S2 _]]]); exists o1, o2; (split; [exact C|]).
  - split; [exact (side_ok_sum _ _ S1)|exact (side_ok_sum _ _ S2)].
  - split; [exact S1|exact S2].
Qed.
Print Assumptions C39_tuplet_partial.

Example C39_nonvacuous :
  let g := fun x => if Qeq_bool x (1 # 3) then Some (3%Z, 2 # 3)%Q else None in
  (exists b a, crossing_split g 3 1 (1 # 3) = Crossed b a /\
     map (fun d => Qred (ql_of d)) b = [1 # 3]%Q /\ map (fun d => Qred (ql_of d)) a = [2 # 3]%Q) /\
  (1 / (2 # 3) == 3072 # 2048)%Q /\ ((1 # 3) / (2 # 3) == 1024 # 2048)%Q /\ (inject_Z (3 ^ 1) * (2 # 3) == inject_Z 2)%Q /\
  ~ writable (1 / inject_Z 3 ^ 1) /\ writable 1.
Proof.
  cbv zeta. split; [do 2 eexists; split; [vm_compute; reflexivity|split; vm_compute; reflexivity]|].
  split; [reflexivity|]. split; [reflexivity|]. split; [reflexivity|]. split.
  - intros X. apply isPowerOfTwoWithDots_spec in X; [vm_compute in X; discriminate X|discriminate].
  - apply isPowerOfTwoWithDots_spec; [discriminate|reflexivity].
Qed.

(** C59.  The undotted length of a rhythm text: the length divided by what its
    augmentation dots add (two dots: 1 + 1/2 + 1/4, and so on). *)
Theorem C59_undotted_length : forall (h : list (str * Q)) (s : str) (scale d : Q),
  (forall call, In call h -> snd call = scale) ->
  fst (recipToDuration (run_recip h) s scale) = Some d ->
  exists d', fst (recipToDurationNoDots (run_recip h) s scale) = Some d' /\
    (d == d' * (2 - (1 # 2) ^ Z.of_nat (count_char "." (first_subtoken s))))%Q.
Proof.
  intros h s sc d H E. rewrite recip_history_independent in E by exact H. rewrite noDots_history by exact H.
  pose proof (noDots_length s sc) as X. rewrite E in X.
  destruct (fst (recipToDurationNoDots [] s sc)) as [d'|]; [|contradiction]. exists d'. split; [reflexivity|exact X].
Qed.
Print Assumptions C59_undotted_length.

Example C59_nonvacuous :
  fst (recipToDuration (run_recip [(S_ "4", 4%Q)]) (S_ "4..cc 8e") 4) = Some ((1 # 4) * dot_factor 2 * 4)%Q /\
  (forall call, In call [(S_ "4", 4%Q)] -> snd call = 4%Q) /\
  (exists d, fst (recipToDurationNoDots [] (S_ "4..cc 8e") 4) = Some d /\ (d == 1)%Q).
Proof.
  split; [reflexivity|]. split; [intros c [<-|[]]; reflexivity|]. eexists. split; [reflexivity|reflexivity].
Qed.

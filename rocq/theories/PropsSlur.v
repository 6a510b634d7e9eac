(** Property theorems C28 (slurs), C67 (which opening a slur starts with), C29 and C68
    (linked ties). *)
From Coq Require Import Lia Sorted Permutation QArith.
From Verif Require Import SlurModel SlurProofs SlurProofs2 TieProofs.
Local Close Scope Q_scope.

(** The slurs made at a token, from positions of marks. *)
Definition pair_tokens (ms : list mark) (p : nat * nat) : stok * stok := (tk ms (fst p), tk ms (snd p)).
Definition closing_at (ms : list mark) (b : nat * nat) (p : nat * nat) : bool := id_eqb (k_id (tk ms (snd p))) b.

Lemma filter_map {A B} (f : A -> B) (g : B -> bool) l : filter g (map f l) = map f (filter (fun x => g (f x)) l).
Proof. induction l as [|x l IH]; [reflexivity|]. cbn. destruct (g (f x)); cbn; now rewrite IH. Qed.

Lemma number_pairs_snd P : forall pre, map snd (number_pairs pre P) = P.
Proof. induction P as [|p P IH]; intros pre; cbn; [reflexivity|]. now rewrite IH. Qed.

Lemma recorded_starts ms st P b : recorded st -> s_pairs st = map (pair_tokens ms) P ->
  map snd (slurs_ending_at st b) = map (fun p => k_id (tk ms (fst p))) (filter (closing_at ms b) P).
Proof.
  intros [_ [_ R]] E. rewrite R, map_map. cbn [entry snd].
  transitivity (map (fun q : stok * stok => k_id (fst q)) (filter (ends_at b) (map snd (number_pairs [] (s_pairs st))))).
  - rewrite filter_map, map_map. reflexivity.
  - rewrite number_pairs_snd, E, filter_map, map_map. reflexivity.
Qed.

Lemma recorded_numbers ms st P b (num : nat * nat -> Z) : recorded st -> s_pairs st = map (pair_tokens ms) P ->
  number_pairs [] (map (pair_tokens ms) P) = map (fun p => (num p, pair_tokens ms p)) P ->
  slurs_ending_at st b = map (fun p => (num p, k_id (tk ms (fst p)))) (filter (closing_at ms b) P).
Proof.
  intros [_ [_ R]] E N. rewrite R, E, N, filter_map, map_map. reflexivity.
Qed.

Lemma rows_one_layer rows : Forall (fun r => length r = 1) rows -> one_layer (slur_marks rows).
Proof.
  intros F m Hm. unfold slur_marks in Hm. apply in_flat_map in Hm as [p [Hp Hm]].
  assert (g_layer m = fst p).
  { unfold token_marks in Hm. destruct (is_null _); [destruct Hm|].
    apply in_app_iff in Hm as [Hm|Hm]; apply in_map_iff in Hm as [i [<- _]]; reflexivity. }
  rewrite H. clear H Hm m. unfold track_tokens in Hp. revert Hp. generalize 0 at 1. induction rows as [|r rows IH]; intros n Hp; [destruct Hp|].
  inversion F as [|? ? Fr Fl]; subst. cbn in Hp. apply in_app_iff in Hp as [Hp|Hp]; [|eapply IH; eassumption].
  destruct r as [|x [|y r]]; cbn in Fr; try discriminate. cbn in Hp. destruct Hp as [<-|[]]. reflexivity.
Qed.

(** C28.  With one layer, and at most three elision marks before a slur mark, a closing
    mark at position [j] is paired with the opening mark at position [i] if and only if the
    marks of their elision level strictly between them are balanced ([matches]).  The pairs
    come in the order of their closing marks; the closing marks left over are reported, in
    order, and so are the opening marks left over; and the slurs that end at a token are
    those pairs, in order. *)
Theorem C28_slurs : forall rows, let ms := slur_marks rows in
  Forall (fun r => length r = 1) rows -> Forall fits ms ->
  exists st P H (U : nat -> list nat),
    analyzeSpineSlurs rows = Some st /\
    s_pairs st = map (pair_tokens ms) P /\
    (forall i j, In (i, j) P <-> matches ms i j) /\
    StronglySorted lt (map snd P) /\ NoDup (map fst P) /\
    s_hang st = map (tk ms) H /\ StronglySorted lt H /\
    (forall j, In j H <-> (exists l, closed ms l 0 j) /\ forall i, ~ matches ms i j) /\
    (forall l, s_opens st l 0 = map (tk ms) (U l) /\ StronglySorted (fun a b => b < a) (U l)) /\
    (forall l i, In i (U l) <-> opened ms l 0 i /\ forall j, ~ matches ms i j) /\
    (forall b, map snd (slurs_ending_at st b) =
               map (fun p => k_id (tk ms (fst p))) (filter (closing_at ms b) P)).
Proof.
  intros rows ms F Fit.
  pose proof (slur_marks_ok rows) as OK. fold ms in OK.
  pose proof (rows_one_layer rows F) as One. fold ms in One.
  destruct (run_total ms OK Fit) as [st E].
  assert (E' : fold_left mark_step (firstn (length ms) ms) (Some s0) = Some st) by (now rewrite firstn_all).
  destruct (run_single ms OK (length ms) st One (le_n _) E') as [_ [g [[R1 [R2 R3]] [I [S1 [S2 S3]]]]]].
  assert (In_range : forall i m, mat ms i m -> i < length ms) by (intros i m M; apply nth_error_Some; unfold mat in M; congruence).
  assert (P' : forall i j, In (i, j) (gpairs g) <-> matches ms i j).
  { intros i j. rewrite S3. split; [tauto|]. intros M. split; [assumption|].
    destruct M as [l [_ [[m [M _]] _]]]. eapply In_range; exact M. }
  exists st, (gpairs g), (ghang g), (fun l => gopens g l 0).
  split; [now rewrite analyze_marks|]. split; [exact R2|]. split; [exact P'|].
  split; [apply (i_sorted _ _ _ I)|]. split; [apply (i_once _ _ _ I)|]. split; [exact R3|].
  split; [apply (i_hsorted _ _ _ I)|]. split; [|split; [|split]].
  - intros j. split.
    + intros Hj. pose proof (i_hclose _ _ _ I j Hj) as [Lj [l [t Cj]]].
      assert (t = 0) as -> by (destruct Cj as [m [M [_ [_ <-]]]]; apply One; eapply nth_error_In; exact M).
      split; [now exists l|]. intros i M. apply P' in M.
      assert (In j (map snd (gpairs g))) by (apply in_map_iff; exists (i, j); auto).
      apply (i_close _ _ _ I l 0 j Cj Lj) in H. contradiction.
    + intros [[l Cj] No]. destruct (in_dec Nat.eq_dec j (ghang g)) as [|N]; [assumption|].
      assert (Lj : j < length ms) by (destruct Cj as [m [M _]]; eapply In_range; exact M).
      apply (i_close _ _ _ I l 0 j Cj Lj) in N. apply in_map_iff in N as [[i j'] [Ej Hi]]. cbn in Ej. subst j'.
      apply P' in Hi. now apply No in Hi.
  - intros l. split; [apply R1|apply (i_order _ _ _ I)].
  - intros l i. rewrite (i_open _ _ _ I). split.
    + intros [Li [Oi N]]. split; [assumption|]. intros j M. apply N. apply P' in M. apply in_map_iff. exists (i, j). auto.
    + intros [Oi No]. split; [destruct Oi as [m [M _]]; eapply In_range; exact M|]. split; [assumption|].
      intros C. apply in_map_iff in C as [[i' j] [Ei C]]. cbn in Ei. subst i'. apply P' in C. now apply No in C.
  - intros b. apply recorded_starts; [|exact R2]. eapply recorded_run; [exact OK|apply recorded_0|exact E].
Qed.
Print Assumptions C28_slurs.

Example C28_nonvacuous :
  let rows := [[S_ "((4c"]; [S_ "4d)("]; [S_ "4e"]; [S_ "4f)"]; [S_ "4g))"]] in
  Forall (fun r => length r = 1) rows /\ Forall fits (slur_marks rows) /\
  matches (slur_marks rows) 1 2 /\ matches (slur_marks rows) 3 4 /\ matches (slur_marks rows) 0 5 /\
  match analyzeSpineSlurs rows with
  | Some st => slurs_ending_at st (1, 0) = [(2%Z, (0, 0))] /\ slurs_ending_at st (3, 0) = [(1%Z, (1, 0))] /\
               slurs_ending_at st (4, 0) = [(1%Z, (0, 0))] /\ map k_id (s_hang st) = [(4, 0)]
  | None => False
  end.
Proof.
  cbv zeta. split; [repeat constructor|]. split.
  { repeat (apply Forall_cons; [split; apply Nat.ltb_lt; vm_compute; reflexivity|]). apply Forall_nil. }
  assert (Mt : forall ms i j mi mj, nth_error ms i = Some mi -> nth_error ms j = Some mj ->
             g_open mi = true -> g_open mj = false -> g_level mi = g_level mj -> g_layer mi = 0 -> g_layer mj = 0 ->
             (i <? j) = true -> Z.eqb (excess ms (g_level mi) i j) 0 = true ->
             forallb (fun k => (0 <=? excess ms (g_level mi) i k)%Z) (seq (S i) (j - i)) = true -> matches ms i j).
  { intros ms i j mi mj Mi Mj Oi Oj Lv Li Lj Lt X Pf. exists (g_level mi).
    split; [exists mi; auto|]. split; [exists mj; auto|]. apply Nat.ltb_lt in Lt. split; [assumption|].
    apply Z.eqb_eq in X. split; [assumption|]. intros k Hk. rewrite forallb_forall in Pf.
    apply Z.leb_le. apply Pf. apply in_seq. lia. }
  split; [eapply Mt; try (vm_compute; reflexivity)|].
  split; [eapply Mt; try (vm_compute; reflexivity)|].
  split; [eapply Mt; try (vm_compute; reflexivity)|].
  vm_compute. repeat split.
Qed.

(** C28: with four elision marks the analysis raises IndexError. *)
Theorem C28_deep_elision_refuted : exists rows, analyzeSpineSlurs rows = None.
Proof. exists [[S_ "&&&&(4c"]; [S_ "4d&&&&)"]]. vm_compute. reflexivity. Qed.
Print Assumptions C28_deep_elision_refuted.

(** C28, any number of layers: every pair joins an opening with a later closing mark of
    the same elision level; no mark is in two pairs; among the openings of one layer the
    last is closed first; an opening of another layer is taken only if all earlier ones
    of the closing mark's own layer are taken; a closing mark is left over only if all
    earlier openings of its level are taken; and every mark is in a pair or reported. *)
Theorem C28_layers : forall rows st, let ms := slur_marks rows in
  analyzeSpineSlurs rows = Some st ->
  exists P H (U : nat -> nat -> list nat),
    s_pairs st = map (pair_tokens ms) P /\ s_hang st = map (tk ms) H /\
    (forall l t, s_opens st l t = map (tk ms) (U l t)) /\
    (forall i j, In (i, j) P -> i < j /\ exists l t t', opened ms l t i /\ closed ms l t' j) /\
    NoDup (map fst P) /\ StronglySorted lt (map snd P) /\ StronglySorted lt H /\
    (forall l t j, closed ms l t j -> (In j (map snd P) <-> ~ In j H)) /\
    (forall l t i, opened ms l t i -> (In i (map fst P) <-> ~ In i (U l t))) /\
    (forall l t i j i', In (i, j) P -> opened ms l t i -> opened ms l t i' -> i < i' < j ->
       exists j', j' < j /\ In (i', j') P) /\
    (forall l t t' i j i', In (i, j) P -> closed ms l t j -> opened ms l t' i -> t <> t' ->
       opened ms l t i' -> i' < j -> exists j', j' < j /\ In (i', j') P) /\
    (forall l t j i t', In j H -> closed ms l t j -> opened ms l t' i -> i < j ->
       exists j', j' < j /\ In (i, j') P) /\
    (forall b, map snd (slurs_ending_at st b) =
               map (fun p => k_id (tk ms (fst p))) (filter (closing_at ms b) P)).
Proof.
  intros rows st ms E. rewrite analyze_marks in E. fold ms in E.
  pose proof (slur_marks_ok rows) as OK. fold ms in OK.
  assert (E' : fold_left mark_step (firstn (length ms) ms) (Some s0) = Some st) by (now rewrite firstn_all).
  destruct (run_prefix ms OK (length ms) st (le_n _) E') as [_ [g [[R1 [R2 R3]] I]]].
  assert (In_range : forall i m, mat ms i m -> i < length ms) by (intros i m M; apply nth_error_Some; unfold mat in M; congruence).
  exists (gpairs g), (ghang g), (gopens g).
  split; [exact R2|]. split; [exact R3|]. split; [exact R1|].
  split; [intros i j Hij; apply (i_pair _ _ _ I) in Hij as [A B]; split; [lia|assumption]|].
  split; [apply (i_once _ _ _ I)|]. split; [apply (i_sorted _ _ _ I)|]. split; [apply (i_hsorted _ _ _ I)|].
  split; [intros l t j C; apply (i_close _ _ _ I l t j C); destruct C as [m [M _]]; eapply In_range; exact M|].
  split.
  { intros l t i O. rewrite (i_open _ _ _ I). assert (i < length ms) by (destruct O as [m [M _]]; eapply In_range; exact M).
    split; [tauto|]. intros N. destruct (in_dec Nat.eq_dec i (map fst (gpairs g))) as [|C]; [assumption|]. exfalso. auto. }
  split; [apply (i_lifo _ _ _ I)|]. split; [apply (i_own _ _ _ I)|]. split; [apply (i_hmax _ _ _ I)|].
  intros b. apply recorded_starts; [|exact R2]. eapply recorded_run; [exact OK|apply recorded_0|exact E].
Qed.
Print Assumptions C28_layers.

Example C28_layers_nonvacuous :
  let rows := [[S_ "(4c"; S_ "(4e"]; [S_ "4d)"; S_ "4f"]; [S_ "4d)"; S_ "4f)"]] in
  match analyzeSpineSlurs rows with
  | Some st => slurs_ending_at st (1, 0) = [(1%Z, (0, 0))] /\ slurs_ending_at st (2, 0) = [(1%Z, (0, 1))] /\
               map k_id (s_hang st) = [(2, 1)]
  | None => False
  end.
Proof. vm_compute. repeat split. Qed.

(** C67.  The full statement is [C67_slur_number_partial] without its hypothesis.  With
    openings of different elision levels in a token, the number recorded for a slur can be
    that of another opening: here the slur of the first opening (level 0) is recorded as
    number 2. *)
Theorem C67_slur_number_refuted : exists rows st P, let ms := slur_marks rows in
  analyzeSpineSlurs rows = Some st /\ s_pairs st = map (pair_tokens ms) P /\
  (forall i j, In (i, j) P -> matches ms i j) /\
  exists b p, filter (closing_at ms b) P = [p] /\ g_idx (nth (fst p) ms dm) = 0 /\
              slurs_ending_at st b = [(2%Z, k_id (tk ms (fst p)))].
Proof.
  set (rows := [[S_ "(&(4c"]; [S_ "4d)"]; [S_ "4e&)"]]).
  destruct (C28_slurs rows) as [st [P [H [U [E [Ep [Hm _]]]]]]].
  - repeat constructor.
  - repeat (apply Forall_cons; [split; apply Nat.ltb_lt; vm_compute; reflexivity|]). apply Forall_nil.
  - exists rows. vm_compute in E. injection E as <-. eexists. exists [(0, 2); (1, 3)]. cbv zeta.
    split; [vm_compute; reflexivity|]. split; [vm_compute; reflexivity|]. split.
    + assert (Mt : forall ms i j mi mj, nth_error ms i = Some mi -> nth_error ms j = Some mj ->
               g_open mi = true -> g_open mj = false -> g_level mi = g_level mj -> g_layer mi = 0 -> g_layer mj = 0 ->
               (i <? j) = true -> Z.eqb (excess ms (g_level mi) i j) 0 = true ->
               forallb (fun k => (0 <=? excess ms (g_level mi) i k)%Z) (seq (S i) (j - i)) = true -> matches ms i j).
      { intros ms i j mi mj Mi Mj Oi Oj Lv Li Lj Lt X Pf. exists (g_level mi).
        split; [exists mi; auto|]. split; [exists mj; auto|]. apply Nat.ltb_lt in Lt. split; [assumption|].
        apply Z.eqb_eq in X. split; [assumption|]. intros k Hk. rewrite forallb_forall in Pf.
        apply Z.leb_le. apply Pf. apply in_seq. lia. }
      intros i j [C|[C|[]]]; injection C as <- <-; eapply Mt; try (vm_compute; reflexivity).
    + exists (1, 0), (0, 2). vm_compute. repeat split.
Qed.
Print Assumptions C67_slur_number_refuted.

(** C67, part: when the openings of each token have one elision level, the slur of each
    pair is recorded with the number, among the openings of its start token, of the opening
    mark that the closing mark pairs with. *)
Theorem C67_slur_number_partial : forall rows st, let ms := slur_marks rows in
  analyzeSpineSlurs rows = Some st -> one_level rows ->
  exists P, s_pairs st = map (pair_tokens ms) P /\
    (Forall (fun r => length r = 1) rows -> forall i j, In (i, j) P <-> matches ms i j) /\
    forall b, slurs_ending_at st b =
      map (fun p => (Z.of_nat (S (g_idx (nth (fst p) ms dm))), k_id (tk ms (fst p)))) (filter (closing_at ms b) P).
Proof.
  intros rows st ms E Lv. pose proof E as E0. rewrite analyze_marks in E. fold ms in E.
  pose proof (slur_marks_ok rows) as OK. fold ms in OK.
  assert (E' : fold_left mark_step (firstn (length ms) ms) (Some s0) = Some st) by (now rewrite firstn_all).
  assert (Rec : recorded st) by (eapply recorded_run; [exact OK|apply recorded_0|exact E]).
  assert (Done : forall g, rel ms st g -> inv ms (length ms) g -> forall b, slurs_ending_at st b =
      map (fun p => (Z.of_nat (S (g_idx (nth (fst p) ms dm))), k_id (tk ms (fst p)))) (filter (closing_at ms b) (gpairs g))).
  { intros g [R1 [R2 R3]] I b. apply recorded_numbers; [assumption|exact R2|].
    apply (numbers_all rows (gpairs g)) with (Q := []) (R := gpairs g).
    - intros i j Hij. apply (i_pair _ _ _ I) in Hij as [A B]. split; [lia|assumption].
    - apply (i_once _ _ _ I).
    - apply (i_sorted _ _ _ I).
    - apply (i_lifo _ _ _ I).
    - assumption.
    - reflexivity. }
  destruct (Forall_dec (fun r : list str => length r = 1) (fun r => Nat.eq_dec (length r) 1) rows) as [F|F].
  - destruct (run_single ms OK (length ms) st (rows_one_layer rows F) (le_n _) E') as [_ [g [R [I [_ [_ S3]]]]]].
    exists (gpairs g). split; [apply R|]. split; [|now apply Done].
    intros _ i j. rewrite S3. split; [tauto|]. intros M. split; [assumption|].
    destruct M as [l [_ [[m [M _]] _]]]. apply nth_error_Some. unfold mat in M. congruence.
  - destruct (run_prefix ms OK (length ms) st (le_n _) E') as [_ [g [R I]]].
    exists (gpairs g). split; [apply R|]. split; [intros C; contradiction|now apply Done].
Qed.
Print Assumptions C67_slur_number_partial.

Example C67_nonvacuous :
  let rows := [[S_ "((4c"]; [S_ "4d)"]; [S_ "4e)"]] in one_level rows /\
  match analyzeSpineSlurs rows with
  | Some st => slurs_ending_at st (1, 0) = [(2%Z, (0, 0))] /\ slurs_ending_at st (2, 0) = [(1%Z, (0, 0))]
  | None => False
  end.
Proof.
  cbv zeta. split; [|vm_compute; repeat split].
  assert (All : forall m, In m (slur_marks [[S_ "((4c"]; [S_ "4d)"]; [S_ "4e)"]]) -> g_level m = 0).
  { apply Forall_forall. repeat (apply Forall_cons; [vm_compute; reflexivity|]). apply Forall_nil. }
  intros m m' H H' _ _ _. now rewrite (All m H), (All m' H').
Qed.

(** C29.  The full statement is that of [C29_linked_ties_partial] without its first two
    hypotheses.  A note with a linked start and a linked end is tied to itself. *)
Theorem C29_linked_ties_refuted : exists link subs s, link <> [] /\
  linkedTies link subs = Some [(s, s)].
Proof.
  exists (S_ "N"), [mkSub (0, 0) 0 (S_ "N[4cN]") false]. eexists. split; [discriminate|]. vm_compute. reflexivity.
Qed.
Print Assumptions C29_linked_ties_refuted.

(** C29: the lowest pitches share their entry with very high ones. *)
Theorem C29_octave_wrap_refuted : exists link subs a b,
  linkedTies link subs = Some [(a, b)] /\ kernToBase40 (u_text a) <> kernToBase40 (u_text b).
Proof.
  exists (S_ "N"), [mkSub (0, 0) 0 (S_ "N[4CCCCC") false; mkSub (1, 0) 0 (S_ "4ccccccN]") false].
  do 2 eexists. split; [vm_compute; reflexivity|]. vm_compute. discriminate.
Qed.
Print Assumptions C29_octave_wrap_refuted.

(** C29, part: where each note has at most one tie mark and pitches are those of octaves
    0 to 9, the notes at [i] and [j] are linked if and only if they are neighbouring tie
    marks of one pitch, the first a start or continuation and the second an end or
    continuation; the links come in the order of their ends; and each link, and nothing
    else, is recorded on both of its tokens. *)
Theorem C29_linked_ties_partial : forall link subs,
  (forall s, In s subs -> (starts link s && stops link s = false) /\ (starts link s && continues link s = false) /\
                          (stops link s && continues link s = false)) ->
  (forall s, In s subs -> tied link s = true -> (0 <= pitch40 s < 400)%Z) ->
  link <> [] ->
  (forall i j a b, sat subs i a -> sat subs j b -> same_tag a b = true -> i = j) ->
  exists P, let pairs := map (fun q => (sub_at subs (fst q), sub_at subs (snd q))) P in
    linkedTies link subs = Some pairs /\
    StronglySorted lt (map snd P) /\
    (forall i j, In (i, j) P <-> linked link subs i j) /\
    (forall i a, sat subs i a ->
       (forall j b, sat subs j b -> linked link subs i j ->
          fst (createLinkedTies pairs) (u_tok a) (tie_tag a) = Some (u_tok b, S (u_idx b))) /\
       ((forall j, ~ linked link subs i j) -> fst (createLinkedTies pairs) (u_tok a) (tie_tag a) = None)) /\
    (forall j b, sat subs j b ->
       (forall i a, sat subs i a -> linked link subs i j ->
          snd (createLinkedTies pairs) (u_tok b) (tie_tag b) = Some (u_tok a, S (u_idx a))) /\
       ((forall i, ~ linked link subs i j) -> snd (createLinkedTies pairs) (u_tok b) (tie_tag b) = None)).
Proof.
  intros link subs One Rng Nl Ids.
  destruct (linked_ties link subs One Rng Nl) as [P [E [So HP]]]. exists P. intros pairs.
  split; [exact E|]. split; [exact So|]. split; [exact HP|].
  assert (T : forall s, (starts link s || continues link s = true) \/ (stops link s || continues link s = true) -> tied link s = true).
  { intros s H. unfold tied. destruct H as [H|H]; apply orb_true_iff in H as [-> | ->]; rewrite ?orb_true_r; reflexivity. }
  assert (UJ : forall i j j', linked link subs i j -> linked link subs i j' -> j = j').
  { intros i j j' [a [b [A [B [L [Pt [Sa [Sb No]]]]]]]] [a' [b' [A' [B' [L' [Pt' [Sa' [Sb' No']]]]]]]].
    unfold sat in *. assert (a' = a) by congruence. subst a'.
    destruct (Nat.lt_trichotomy j j') as [C|[C|C]]; [|assumption|]; exfalso.
    - apply (No' j b); auto.
    - apply (No j' b'); auto. }
  assert (UI : forall i i' j, linked link subs i j -> linked link subs i' j -> i = i').
  { intros i i' j [a [b [A [B [L [Pt [Sa [Sb No]]]]]]]] [a' [b' [A' [B' [L' [Pt' [Sa' [Sb' No']]]]]]]].
    unfold sat in *. assert (b' = b) by congruence. subst b'.
    destruct (Nat.lt_trichotomy i i') as [C|[C|C]]; [|assumption|]; exfalso.
    - apply (No i' a'); auto. congruence.
    - apply (No' i a); auto. congruence. }
  assert (InP : forall p, In p (rev pairs) <-> exists i j, linked link subs i j /\ p = (sub_at subs i, sub_at subs j)).
  { intros p. rewrite <- in_rev. unfold pairs. rewrite in_map_iff. split.
    - intros [[i j] [<- H]]. exists i, j. split; [now apply HP|reflexivity].
    - intros [i [j [H ->]]]. exists (i, j). split; [reflexivity|now apply HP]. }
  assert (At : forall i j, linked link subs i j -> sat subs i (sub_at subs i) /\ sat subs j (sub_at subs j)).
  { intros i j [a [b [A [B _]]]]. split; [now rewrite (sat_sub_at subs i a A)|now rewrite (sat_sub_at subs j b B)]. }
  assert (Refl : forall a, same_tag a a = true).
  { intros a. unfold same_tag. now rewrite id_eqb_refl, Nat.eqb_refl. }
  split.
  - intros i a Ha. destruct (recorded_ties pairs (fun _ _ => None, fun _ _ => None) a) as [R _].
    unfold createLinkedTies. rewrite R. split.
    + intros j b Hb Lk. rewrite (find_unique _ _ (sub_at subs i, sub_at subs j)).
      * cbn. now rewrite (sat_sub_at subs j b Hb).
      * apply InP. exists i, j. auto.
      * cbn. rewrite (sat_sub_at subs i a Ha). apply Refl.
      * intros y Hy Fy. apply InP in Hy as [i' [j' [Lk' ->]]]. cbn in Fy.
        assert (i = i') as <- by (eapply Ids; [exact Ha|apply (At _ _ Lk')|exact Fy]).
        assert (j' = j) as -> by (eapply UJ; eassumption). reflexivity.
    + intros No. destruct (find _ (rev pairs)) as [p|] eqn:Ef; [|reflexivity]. exfalso.
      apply find_some in Ef as [Hp Fp]. apply InP in Hp as [i' [j' [Lk' ->]]]. cbn in Fp.
      assert (i = i') as <- by (eapply Ids; [exact Ha|apply (At _ _ Lk')|exact Fp]). now apply (No j').
  - intros j b Hb. destruct (recorded_ties pairs (fun _ _ => None, fun _ _ => None) b) as [_ R].
    unfold createLinkedTies. rewrite R. split.
    + intros i a Ha Lk. rewrite (find_unique _ _ (sub_at subs i, sub_at subs j)).
      * cbn. now rewrite (sat_sub_at subs i a Ha).
      * apply InP. exists i, j. auto.
      * cbn. rewrite (sat_sub_at subs j b Hb). apply Refl.
      * intros y Hy Fy. apply InP in Hy as [i' [j' [Lk' ->]]]. cbn in Fy.
        assert (j = j') as <- by (eapply Ids; [exact Hb|apply (At _ _ Lk')|exact Fy]).
        assert (i' = i) as -> by (eapply UI; eassumption). reflexivity.
    + intros No. destruct (find _ (rev pairs)) as [p|] eqn:Ef; [|reflexivity]. exfalso.
      apply find_some in Ef as [Hp Fp]. apply InP in Hp as [i' [j' [Lk' ->]]]. cbn in Fp.
      assert (j = j') as <- by (eapply Ids; [exact Hb|apply (At _ _ Lk')|exact Fp]). now apply (No i').
Qed.
Print Assumptions C29_linked_ties_partial.

(** A chord with two starts, one of them continued, then both ended; the links of the two
    pitches interleave. *)
Example C29_nonvacuous :
  let link := S_ "N" in
  let subs := [mkSub (0, 0) 0 (S_ "N[4c") true; mkSub (0, 0) 1 (S_ "N[4e") true;
               mkSub (1, 0) 0 (S_ "4cN_") false; mkSub (2, 1) 0 (S_ "4eN]") false; mkSub (3, 0) 0 (S_ "4cN]") false] in
  (forall s, In s subs -> (starts link s && stops link s = false) /\ (starts link s && continues link s = false) /\
                          (stops link s && continues link s = false)) /\
  (forall s, In s subs -> tied link s = true -> (0 <= pitch40 s < 400)%Z) /\
  (forall i j a b, sat subs i a -> sat subs j b -> same_tag a b = true -> i = j) /\
  linkedTies link subs = Some [(sub_at subs 0, sub_at subs 2); (sub_at subs 1, sub_at subs 3); (sub_at subs 2, sub_at subs 4)] /\
  fst (createLinkedTies [(sub_at subs 0, sub_at subs 2); (sub_at subs 1, sub_at subs 3); (sub_at subs 2, sub_at subs 4)])
      (0, 0) 2 = Some ((2, 1), 1).
Proof.
  cbv zeta. split; [|split; [|split; [|split; vm_compute; reflexivity]]].
  - apply Forall_forall. repeat (apply Forall_cons; [vm_compute; repeat split|]). apply Forall_nil.
  - match goal with |- forall s, In s ?l -> _ =>
      apply (proj1 (Forall_forall (fun s => tied (S_ "N") s = true -> (0 <= pitch40 s < 400)%Z) l)) end.
    repeat (apply Forall_cons; [intros _; split; [apply Z.leb_le|apply Z.ltb_lt]; vm_compute; reflexivity|]).
    apply Forall_nil.
  - unfold sat. intros i j a b A B H.
    do 5 (destruct i as [|i]; [do 5 (destruct j as [|j];
      [try reflexivity; exfalso; injection A as <-; injection B as <-; vm_compute in H; discriminate|]); destruct j; discriminate|]).
    destruct i; discriminate.
Qed.

(** C68.  The full statement is that of [C68_note_ties_partial] without its hypothesis.  A
    note that both ends a tie and starts one is given a start only. *)
Theorem C68_note_ties_refuted : exists notes e, nth_error notes 0 = Some e /\
  marked_tie (n_text e) = Some Tcontinue /\ o_tie (staffTies notes) 0 = Some Tstart.
Proof. exists [mkN 0 0 1 (S_ "[4c]") false false]. eexists. split; [reflexivity|]. vm_compute. auto. Qed.
Print Assumptions C68_note_ties_refuted.

(** C68, part: where no note has both an ending mark and a starting (or continuing) one,
    each note of a staff has the tie its own marks say, whichever ties are paired, left
    open, left without a start, or linked. *)
Theorem C68_note_ties_partial : forall notes,
  (forall e, In e notes -> is_start (n_text e) && is_stop (n_text e) = false) ->
  forall i, o_tie (staffTies notes) i =
    match nth_error notes i with Some e => marked_tie (n_text e) | None => None end.
Proof. exact note_tie. Qed.
Print Assumptions C68_note_ties_partial.

Example C68_nonvacuous :
  let notes := [mkN 0 0 1 (S_ "[4c") false false; mkN 1 0 1 (S_ "[4e") false false; mkN 0 1 1 (S_ "4c_") false false;
                mkN 0 2 1 (S_ "4c]") false false; mkN 1 (7 # 2)%Q 1 (S_ "4e]") false false; mkN 1 5 1 (S_ "4f") false false] in
  (forall e, In e notes -> is_start (n_text e) && is_stop (n_text e) = false) /\
  map (o_tie (staffTies notes)) (seq 0 6) = [Some Tstart; Some Tstart; Some Tcontinue; Some Tstop; Some Tstop; None] /\
  o_pairs (staffTies notes) = [(0, 2); (2, 3)].
Proof.
  cbv zeta. split; [|split; vm_compute; reflexivity].
  apply Forall_forall. repeat (apply Forall_cons; [vm_compute; reflexivity|]). apply Forall_nil.
Qed.

(** C106: the beams of the notes of a group when a Humdrum file is read. *)
From Coq Require Import ZArith Lia.
From Verif Require Import PyStr PyStrProofs BeamModel BeamProofs BeamLevelModel.

(** * What the beams of a note say. *)
(** A beam of a note that is joined to the same beam of the note before it ([l]), of
    the note after it ([r]), both, or neither. *)
Inductive shows : beam -> bool -> bool -> Prop :=
  | sh_cont : shows BContinue true true
  | sh_start : shows BStart false true
  | sh_stop : shows BStop true false
  | sh_left : shows BPartialLeft false false
  | sh_right : shows BPartialRight false false
  | sh_part : shows BPartialNone false false.
(** The beams of a note of which the first [jl] are joined to the note before and the
    first [jr] to the note after. *)
Definition marks (jl jr : nat) (bs : list beam) : Prop :=
  forall b x, nth_error bs b = Some x -> shows x (b <? jl) (b <? jr).
(** The notes of a group: [js] says for each note how many beams join it to the next
    (at least one; none for the last). *)
Fixpoint marked (jl : nat) (js : list nat) (bss : list (list beam)) : Prop :=
  match js, bss with
  | [j], [bs] => j = 0 /\ marks jl 0 bs
  | j :: js', bs :: ((bs2 :: _) as bss') =>
      1 <= j /\ j <= length bs /\ j <= length bs2 /\ marks jl j bs /\ marked j js' bss'
  | _, _ => False
  end.
(** Two beams of the same kind; the side of a hook does not count. *)
Definition same (x y : beam) : Prop :=
  match x, y with
  | (BPartialLeft | BPartialRight | BPartialNone), (BPartialLeft | BPartialRight | BPartialNone) => True
  | _, _ => x = y
  end.

(** * Lemmas. *)
Lemma nth_repeat_beam (k : beam) n b x : nth_error (repeat k n) b = Some x -> x = k /\ b < n.
Proof.
  intros H. split; [apply nth_error_In in H; apply repeat_spec in H; exact H|].
  assert (b < length (repeat k n)) by (apply nth_error_Some; congruence). rewrite repeat_length in *. assumption.
Qed.
Lemma nth_setFrom n f bs b : nth_error (setFrom n f bs) b = if b <? n then nth_error bs b else option_map f (nth_error bs b).
Proof.
  unfold setFrom. revert bs b. induction n as [|n IH]; intros bs b.
  - cbn [firstn skipn app]. rewrite nth_error_map. reflexivity.
  - destruct bs as [|x bs]; cbn [firstn skipn app map]; [destruct b; [reflexivity|]; destruct (S b <? S n); reflexivity|].
    destruct b as [|b]; [reflexivity|]. cbn [nth_error]. rewrite IH. reflexivity.
Qed.
Lemma setFrom_length n f bs : length (setFrom n f bs) = length bs.
Proof. unfold setFrom. rewrite app_length, map_length, <- app_length, firstn_skipn. reflexivity. Qed.

(** The beams of a note before the next one is seen. *)
Definition pre (jl : nat) (bs : list beam) : Prop :=
  forall b x, nth_error bs b = Some x -> x = if b <? jl then BContinue else BStart.
Definition effective (cp brp c : nat) : bool := (0 <? brp) && (cp =? c) && (brp <? c).
Definition join (cp brp c : nat) : nat := if effective cp brp c then brp else Nat.min cp c.

Ltac bool_cases := repeat match goal with
  | |- context [?a <? ?b] => destruct (Nat.ltb_spec a b)
  | H : context [?a <? ?b] |- _ => destruct (Nat.ltb_spec a b)
  end.

Lemma continueBeam_ok last jl cp brp pb c :
  1 <= cp -> 1 <= c -> length pb = cp -> pre jl pb ->
  (effective cp brp c = true -> cp <= jl /\ last = false) ->
  exists pb' bs, continueBeam last cp brp pb c = Some (pb', bs) /\ length pb' = cp /\ length bs = c /\
    marks jl (join cp brp c) pb' /\
    (last = false -> pre (join cp brp c) bs) /\ (last = true -> marks (join cp brp c) 0 bs).
Proof.
  intros CP C L P E. unfold continueBeam. fold (effective cp brp c).
  replace (0 <? c) with true by (symmetry; apply Nat.ltb_lt; lia).
  replace (0 <? cp) with true by (symmetry; apply Nat.ltb_lt; lia). cbn [andb].
  assert (FA : firstn cp pb = pb) by (rewrite <- L; apply firstn_all).
  assert (SA : skipn cp pb = []) by (rewrite <- L; apply skipn_all).
  assert (PM : forall j, (forall b, b < cp -> b < j) -> marks jl j pb).
  { intros j J b x H. assert (b < cp) by (rewrite <- L; apply nth_error_Some; congruence). rewrite (P _ _ H).
    replace (b <? j) with true by (symmetry; apply Nat.ltb_lt; auto). destruct (b <? jl); constructor. }
  destruct (Nat.ltb_spec c cp) as [Lt|Ge]; [|destruct (Nat.ltb_spec cp c) as [Gt|Eq]].
  - (* fewer beams than before *)
    rewrite L, Nat.ltb_irrefl. assert (EF : effective cp brp c = false) by (unfold effective; replace (cp =? c) with false by (symmetry; apply Nat.eqb_neq; lia); rewrite andb_false_r; reflexivity).
    unfold join. rewrite EF. cbv zeta. do 2 eexists. split; [reflexivity|].
    rewrite FA, SA, app_nil_r, setFrom_length, repeat_length. split; [exact L|]. split; [reflexivity|]. split; [|split].
    + intros b x H. rewrite nth_setFrom in H. rewrite Nat.min_r by lia. destruct (Nat.ltb_spec b c) as [B|B].
      * rewrite (P _ _ H). destruct (b <? jl); constructor.
      * destruct (nth_error pb b) as [y|] eqn:Y; [|discriminate]. cbn in H. injection H as <-. rewrite (P _ _ Y). destruct (b <? jl); cbn; constructor.
    + intros -> b x H. apply nth_repeat_beam in H as [-> H]. rewrite Nat.min_r by lia. replace (b <? c) with true by (symmetry; apply Nat.ltb_lt; lia). reflexivity.
    + intros -> b x H. apply nth_repeat_beam in H as [-> H]. rewrite Nat.min_r by lia. replace (b <? c) with true by (symmetry; apply Nat.ltb_lt; lia). constructor.
  - (* more beams than before *)
    assert (EF : effective cp brp c = false) by (unfold effective; replace (cp =? c) with false by (symmetry; apply Nat.eqb_neq; lia); rewrite andb_false_r; reflexivity).
    unfold join. rewrite EF. cbv zeta. do 2 eexists. split; [reflexivity|]. split; [exact L|]. rewrite Nat.min_l by lia.
    split; [destruct last; rewrite app_length, !repeat_length; lia|]. split; [apply PM; auto|].
    split; intros -> b x H; (destruct (Nat.ltb_spec b cp) as [B|B];
      [rewrite nth_error_app1 in H by (rewrite repeat_length; lia)|rewrite nth_error_app2 in H by (rewrite repeat_length; lia)];
      apply nth_repeat_beam in H as [-> _]; [constructor||reflexivity|constructor||reflexivity]).
  - (* as many *)
    assert (cp = c) by lia. subst c. clear Ge Eq. destruct (effective cp brp cp) eqn:EF.
    + destruct (E eq_refl) as [JL ->]. unfold join. rewrite EF. unfold effective in EF. apply andb_prop in EF as [EF1 EF2]. apply Nat.ltb_lt in EF2.
      rewrite L, Nat.ltb_irrefl. do 2 eexists. split; [reflexivity|].
      rewrite FA, SA, app_nil_r, !setFrom_length, repeat_length. split; [exact L|]. split; [reflexivity|]. split; [|split; [|discriminate]].
      * intros b x H. rewrite nth_setFrom in H. destruct (Nat.ltb_spec b brp) as [B|B].
        -- rewrite (P _ _ H). destruct (b <? jl); constructor.
        -- destruct (nth_error pb b) as [y|] eqn:Y; [|discriminate]. cbn in H. injection H as <-.
           assert (b < cp) by (rewrite <- L; apply nth_error_Some; congruence).
           replace (b <? jl) with true by (symmetry; apply Nat.ltb_lt; lia). constructor.
      * intros _ b x H. rewrite nth_setFrom in H. destruct (Nat.ltb_spec b brp) as [B|B].
        -- apply nth_repeat_beam in H as [-> _]. reflexivity.
        -- destruct (nth_error _ b) as [y|] eqn:Y; [|discriminate]. cbn in H. congruence.
    + unfold join. rewrite EF. rewrite Nat.min_id. do 2 eexists. split; [reflexivity|]. split; [exact L|]. rewrite repeat_length. split; [reflexivity|].
      split; [apply PM; auto|]. split; intros -> b x H; apply nth_repeat_beam in H as [-> H]; replace (b <? cp) with true by (symmetry; apply Nat.ltb_lt; lia); [reflexivity|constructor].
Qed.

Lemma marked_cons jl j js bs b2 bss : marked jl (j :: js) (bs :: b2 :: bss) =
  (1 <= j /\ j <= length bs /\ j <= length b2 /\ marks jl j bs /\ marked j js (b2 :: bss)).
Proof. destruct js; reflexivity. Qed.
Fixpoint joinsOf (xs : list (nat * nat)) : list nat :=
  match xs with
  | [] => []
  | [_] => [0]
  | (c, br) :: (((c2, _) :: _) as xs') => join c br c2 :: joinsOf xs'
  end.
Fixpoint breaks_fine (jl : nat) (xs : list (nat * nat)) : Prop :=
  match xs with
  | (c, br) :: (((c2, _) :: rest) as xs') =>
      (effective c br c2 = true -> c <= jl /\ rest <> []) /\ breaks_fine (join c br c2) xs'
  | _ => True
  end.
Definition item_of (x : nat * nat) : bitem := BNote (fst x) (snd x).

Lemma join_bounds cp br c : 1 <= cp -> 1 <= c -> 1 <= join cp br c /\ join cp br c <= cp /\ join cp br c <= c.
Proof.
  intros A B. unfold join, effective. destruct (0 <? br) eqn:E1; cbn [andb]; [|lia].
  destruct (cp =? c) eqn:E2; cbn [andb]; [|lia]. destruct (br <? c) eqn:E3; [|lia].
  apply Nat.ltb_lt in E1, E3. apply Nat.eqb_eq in E2. lia.
Qed.
Lemma go_ok : forall xs jl c br pb, xs <> [] -> 1 <= c -> (forall x, In x xs -> 1 <= fst x) -> length pb = c -> pre jl pb ->
  breaks_fine jl ((c, br) :: xs) ->
  exists bss, go (BNote c br) pb 0 (map item_of xs) = Some bss /\ map (@length beam) bss = c :: map fst xs /\
    marked jl (joinsOf ((c, br) :: xs)) bss.
Proof.
  induction xs as [|[c2 br2] xs IH]; intros jl c br pb NE C1 CS L P F; [congruence|]. clear NE.
  assert (C2 : 1 <= c2) by (apply (CS (c2, br2)); left; reflexivity).
  destruct F as [F1 F2]. change (map item_of ((c2, br2) :: xs)) with (BNote c2 br2 :: map item_of xs). cbn [go].
  destruct (continueBeam_ok (match map item_of xs with [] => true | _ => false end) jl c br pb c2) as (pb' & bs & E & L1 & L2 & M & PR & MR);
    [assumption..| |].
  { intros EF. destruct (F1 EF) as [A B]. split; [exact A|]. destruct xs; [congruence|reflexivity]. }
  rewrite E. destruct (join_bounds c br c2 C1 C2) as (J1 & J2 & J3).
  destruct xs as [|x xs].
  - cbn [map go option_map repeat app]. exists [pb'; bs]. split; [reflexivity|]. cbn [map]. rewrite L1, L2. split; [reflexivity|].
    cbn [joinsOf]. cbn [marked]. rewrite L1, L2. repeat split; try assumption. apply MR. reflexivity.
  - destruct (IH (join c br c2) c2 br2 bs) as (bss & G & LN & MK); [discriminate|assumption| | | |exact F2|].
    + intros y Y. apply CS. right. exact Y.
    + exact L2.
    + apply PR. reflexivity.
    + rewrite G. cbn [option_map repeat app]. exists (pb' :: bss). split; [reflexivity|]. cbn [map]. rewrite LN, L1. split; [reflexivity|].
      destruct bss as [|b2 bss]; [discriminate|]. change (joinsOf ((c, br) :: (c2, br2) :: x :: xs)) with (join c br c2 :: joinsOf ((c2, br2) :: x :: xs)).
      injection LN as LN _. rewrite marked_cons.
      rewrite L1, LN. repeat split; assumption.
Qed.
Lemma pre_start c : pre 0 (repeat BStart c).
Proof. intros b x H. apply nth_repeat_beam in H as [-> _]. reflexivity. Qed.
Lemma group_ok xs : 2 <= length xs -> (forall x, In x xs -> 1 <= fst x) -> breaks_fine 0 xs ->
  exists bss, group (map item_of xs) = Some bss /\ map (@length beam) bss = map fst xs /\ marked 0 (joinsOf xs) bss.
Proof.
  intros L P F. destruct xs as [|[c br] [|y xs]]; [cbn in L; lia..|].
  change (group (map item_of ((c, br) :: y :: xs))) with (go (BNote c br) (repeat BStart c) 0 (map item_of (y :: xs))).
  apply go_ok; [discriminate|apply (P (c, br)); left; reflexivity|intros x X; apply P; right; exact X|apply repeat_length|apply pre_start|exact F].
Qed.

(** * Groups without secondary breaks. *)
(** Each two neighbours are joined by the beams that both have. *)
Fixpoint shared (cs : list nat) : list nat :=
  match cs with
  | [] => []
  | [_] => [0]
  | c :: ((c2 :: _) as cs') => Nat.min c c2 :: shared cs'
  end.
Lemma shared_joins cs : joinsOf (map (fun c => (c, 0)) cs) = shared cs.
Proof. induction cs as [|c [|c2 cs] IH]; [reflexivity..|]. cbn [map joinsOf shared] in *. rewrite <- IH. reflexivity. Qed.
Lemma no_breaks_fine cs : forall jl, breaks_fine jl (map (fun c => (c, 0)) cs).
Proof. induction cs as [|c [|c2 cs] IH]; intros jl; [exact I..|]. cbn [map]. split; [discriminate|]. apply IH. Qed.

(** When a beamed group without secondary breaks is read, each note gets as many
    beams as its value asks for, and each beam is begun, kept on, ended or a hook
    according to whether the notes on its two sides have it. *)
Theorem C106_levels : forall cs, 2 <= length cs -> Forall (fun c => 1 <= c) cs ->
  exists bss, group (map (fun c => BNote c 0) cs) = Some bss /\ map (@length beam) bss = cs /\ marked 0 (shared cs) bss.
Proof.
  intros cs L P. destruct (group_ok (map (fun c => (c, 0)) cs)) as (bss & G & LN & M).
  - rewrite map_length. exact L.
  - intros x X. apply in_map_iff in X as (c & <- & X). rewrite Forall_forall in P. apply P. exact X.
  - apply no_breaks_fine.
  - exists bss. rewrite map_map in G. rewrite map_map in LN. cbn in LN. rewrite map_id in LN. rewrite shared_joins in M. repeat split; assumption.
Qed.
Print Assumptions C106_levels.
Example C106_levels_nonvacuous : group (map (fun c => BNote c 0) [1; 2; 2; 1; 2]) =
  Some [[BStart]; [BContinue; BStart]; [BContinue; BStop]; [BContinue]; [BStop; BPartialLeft]].
Proof. reflexivity. Qed.

(** * Export and re-import. *)
(** The groups that come back: between two neighbours either all beams that both
    have go on; or, with a secondary break, both have as many, the first is joined
    to the note before it by all of them, and the second to the note after it by
    more than are kept at the break. *)
Fixpoint tame (jl : nat) (cs js : list nat) : Prop :=
  match cs, js with
  | c :: ((c2 :: _) as cs'), j :: js' =>
      (j = Nat.min c c2 \/ (c = c2 /\ j < c /\ c <= jl /\ j < hd 0 js')) /\ tame j cs' js'
  | _, _ => True
  end.
Lemma marks_tl jl jr x bs : marks jl jr (x :: bs) -> marks (Nat.pred jl) (Nat.pred jr) bs.
Proof.
  intros M b y H. specialize (M (S b) y H).
  replace (b <? Nat.pred jl) with (S b <? jl) by (destruct jl; [reflexivity|cbn [Nat.pred]; reflexivity]).
  replace (b <? Nat.pred jr) with (S b <? jr) by (destruct jr; reflexivity). exact M.
Qed.
Lemma marks_count : forall bs jl jr, marks jl jr bs -> jl <= length bs -> jr <= length bs ->
  count_if is_start bs + jl = count_if is_stop bs + jr.
Proof.
  induction bs as [|x bs IH]; intros jl jr M A B; cbn [length] in *; [cbn; lia|].
  pose proof (M 0 x eq_refl) as S. specialize (IH _ _ (marks_tl _ _ _ _ M)). cbn [count_if].
  destruct jl as [|jl], jr as [|jr]; cbn in S; inversion S; subst; cbn [is_start is_stop Nat.pred] in *; lia.
Qed.
(** A note's text: the letters of its beams among other text without such letters. *)
Definition written (bs : list beam) (t : str) : Prop :=
  exists a z, t = a ++ getHumdrumBeamString bs ++ z /\ no_beam_letters a /\ no_beam_letters z.
Lemma opens_joins : forall bss js jl texts, marked jl js bss -> jl <= length (hd [] bss) -> Forall2 written bss texts ->
  opens (Z.of_nat jl) texts = map Z.of_nat js.
Proof.
  induction bss as [|bs bss IH]; intros js jl texts M J F; [destruct js as [|? [|]]; destruct M|].
  inversion F as [|? t ? ts (a & z & -> & A & B) F']; subst. cbn [opens]. rewrite (net_note a z bs A B). cbn [hd] in J.
  destruct bss as [|b2 bss].
  - inversion F'; subst. destruct js as [|j [|? ?]]; [destruct M| |destruct M as (_&_&_)||(cbn in M; destruct M)]; try (exfalso; exact M).
    destruct M as [-> M]. pose proof (marks_count bs jl 0 M J ltac:(lia)). cbn [map opens]. f_equal. lia.
  - destruct js as [|j js]; [destruct M|]. rewrite marked_cons in M. destruct M as (M1 & M2 & M3 & M4 & M5).
    pose proof (marks_count bs jl j M4 J M2).
    replace (Z.of_nat jl + (Z.of_nat (count_if is_start bs) - Z.of_nat (count_if is_stop bs)))%Z with (Z.of_nat j) by lia.
    cbn [map]. f_equal. apply IH; assumption.
Qed.
Lemma marked_length : forall bss js jl, marked jl js bss -> length js = length bss.
Proof.
  induction bss as [|bs bss IH]; intros js jl M; [destruct js as [|? [|]]; destruct M|].
  destruct bss as [|b2 bss]; [destruct js as [|j [|? ?]]; [destruct M|reflexivity|destruct M]|].
  destruct js as [|j js]; [destruct M|]. rewrite marked_cons in M. cbn [length]. f_equal. apply (IH js j). apply M.
Qed.
(** The breaks stored are those that the joins need. *)
Lemma breaks_joins : forall bss js jl prev, marked jl js bss -> (prev = Some (Z.of_nat jl) \/ prev = None /\ jl = 0) ->
  tame jl (map (@length beam) bss) js ->
  let xs := combine (map (@length beam) bss) (breaks prev (map Z.of_nat js)) in
  joinsOf xs = js /\ breaks_fine jl xs /\ map fst xs = map (@length beam) bss.
Proof.
  induction bss as [|bs bss IH]; intros js jl prev M P T; [destruct js as [|? [|]]; destruct M|].
  destruct bss as [|b2 bss]; [destruct js as [|j [|? ?]]; [destruct M| |destruct M]; destruct M as [-> _]; cbn; auto|].
  destruct js as [|j js]; [destruct M|]. rewrite marked_cons in M. destruct M as (M1 & M2 & M3 & M4 & M5).
  pose proof (marked_length _ _ _ M5) as LJ. destruct js as [|j2 js]; [discriminate|].
  cbn [map tame] in T. destruct T as [T1 T2].
  specialize (IH (j2 :: js) j (Some (Z.of_nat j)) M5 (or_introl eq_refl) T2). cbn zeta in IH. destruct IH as (I1 & I2 & I3).
  cbn zeta. change (map Z.of_nat (j :: j2 :: js)) with (Z.of_nat j :: map Z.of_nat (j2 :: js)).
  assert (B : exists br, breaks prev (Z.of_nat j :: map Z.of_nat (j2 :: js)) = br :: breaks (Some (Z.of_nat j)) (map Z.of_nat (j2 :: js)) /\
     (br = 0 \/ br = j) /\ (j < jl -> j < j2 -> br = j)).
  { eexists. split; [reflexivity|]. destruct P as [-> | [-> ->]]; [|split; [auto|lia]].
    destruct (Z.ltb_spec (Z.of_nat j) (Z.of_nat jl)), (Z.ltb_spec (Z.of_nat j) (Z.of_nat j2)); cbn [andb]; rewrite ?Nat2Z.id; split; auto; lia. }
  destruct B as (br & -> & B1 & B2). destruct (breaks (Some (Z.of_nat j)) (map Z.of_nat (j2 :: js))) as [|r rest] eqn:R; [destruct js; discriminate|].
  cbn [map combine] in I1, I2, I3 |- *.
  assert (E : join (length bs) br (length b2) = j /\ (effective (length bs) br (length b2) = true -> length bs <= jl /\ bss <> [])).
  { unfold join, effective. destruct T1 as [T1|(C & T3 & T4 & T5)].
    - assert (EF : (0 <? br) && (length bs =? length b2) && (br <? length b2) = false).
      { destruct B1 as [-> | ->]; [reflexivity|]. destruct (length bs =? length b2) eqn:Q; [|rewrite andb_false_r; reflexivity].
        apply Nat.eqb_eq in Q. replace (j <? length b2) with false by (symmetry; apply Nat.ltb_ge; lia). rewrite andb_false_r. reflexivity. }
      rewrite EF. split; [symmetry; exact T1|discriminate].
    - cbn [hd] in T5. assert (br = j) by (apply B2; lia). subst br.
      replace (0 <? j) with true by (symmetry; apply Nat.ltb_lt; lia). replace (length bs =? length b2) with true by (symmetry; apply Nat.eqb_eq; exact C).
      replace (j <? length b2) with true by (symmetry; apply Nat.ltb_lt; lia). cbn [andb]. split; [reflexivity|]. intros _. split; [exact T4|].
      intros ->. destruct js; [|discriminate]. cbn in M5. lia. }
  destruct E as [E1 E2]. split; [|split].
  - cbn [joinsOf]. rewrite E1. f_equal. exact I1.
  - change (breaks_fine jl ((length bs, br) :: (length b2, r) :: combine (map (@length beam) bss) rest)) with
      ((effective (length bs) br (length b2) = true -> length bs <= jl /\ combine (map (@length beam) bss) rest <> []) /\
       breaks_fine (join (length bs) br (length b2)) ((length b2, r) :: combine (map (@length beam) bss) rest)).
    rewrite E1. split; [|exact I2]. intros EF. destruct (E2 EF) as [E3 E4]. split; [exact E3|].
    intros Q. cbn [map] in I3. rewrite Q in I3. destruct bss; [congruence|discriminate].
  - cbn [fst]. f_equal. exact I3.
Qed.
Lemma marks_same jl jr : forall bs bs', length bs = length bs' -> marks jl jr bs -> marks jl jr bs' -> Forall2 same bs bs'.
Proof.
  intros bs. revert jl jr. induction bs as [|x bs IH]; intros jl jr [|y bs'] L M M'; try discriminate; [constructor|].
  constructor; [|eapply IH; [injection L as L; exact L|eapply marks_tl; exact M|eapply marks_tl; exact M']].
  pose proof (M 0 x eq_refl) as A. pose proof (M' 0 y eq_refl) as B. inversion A; subst; inversion B; subst; cbn; congruence || exact I.
Qed.
Lemma marked_same : forall bss bss' js jl, map (@length beam) bss = map (@length beam) bss' -> marked jl js bss -> marked jl js bss' ->
  Forall2 (Forall2 same) bss bss'.
Proof.
  induction bss as [|bs bss IH]; intros bss' js jl L M M'; [destruct bss'; [constructor|discriminate]|].
  destruct bss' as [|bs' bss']; [discriminate|]. injection L as L1 L2.
  destruct bss as [|b2 bss], bss' as [|b2' bss']; try discriminate.
  - destruct js as [|j [|? ?]]; [destruct M| |destruct M]. constructor; [|constructor]. eapply marks_same; [exact L1|apply M|apply M'].
  - destruct js as [|j js]; [destruct M|]. rewrite marked_cons in M, M'. constructor; [eapply marks_same; [exact L1|apply M|apply M']|].
    apply (IH _ js j); [exact L2|apply M|apply M'].
Qed.

(** A properly marked group of notes whose beams are written as letters gets the same
    beams when it is read (the side of a hook apart), if its breaks are as [tame]
    says.  "Partial" because of that condition; see the counterexamples. *)
Theorem C106_roundtrip_partial : forall bss js texts, 2 <= length bss -> marked 0 js bss -> Forall (fun bs => 1 <= length bs) bss ->
  tame 0 (map (@length beam) bss) js -> Forall2 written bss texts ->
  exists bss', readBeams (map (@length beam) bss) texts = Some bss' /\ Forall2 (Forall2 same) bss bss'.
Proof.
  intros bss js texts L M P T W. unfold readBeams.
  change 0%Z with (Z.of_nat 0). rewrite (opens_joins bss js 0 texts M ltac:(lia) W).
  destruct (breaks_joins bss js 0 None M (or_intror (conj eq_refl eq_refl)) T) as (J & F & C). cbn zeta in J, F, C.
  set (xs := combine _ _) in *. clearbody xs.
  assert (LX : length xs = length bss) by (rewrite <- (map_length (@length beam) bss), <- C, map_length; reflexivity).
  destruct (group_ok xs) as (bss' & G & LN & MK); [lia| |exact F|].
  - intros x X. apply (in_map fst) in X. rewrite C in X. apply in_map_iff in X as (bs & <- & X). rewrite Forall_forall in P. apply P. exact X.
  - exists bss'. split; [exact G|]. apply (marked_same _ _ js 0); [congruence|exact M|rewrite J in MK; exact MK].
Qed.
Print Assumptions C106_roundtrip_partial.
Example C106_roundtrip_nonvacuous :
  let bss := [[BStart; BStart]; [BContinue; BStop]; [BContinue; BStart]; [BContinue; BStop]; [BStop]] in
  marked 0 [2; 1; 2; 1; 0] bss /\ tame 0 (map (@length beam) bss) [2; 1; 2; 1; 0] /\
  readBeams (map (@length beam) bss) (map getHumdrumBeamString bss) = Some bss.
Proof.
  cbn zeta. split; [|split; [cbn; lia|reflexivity]].
  cbn. repeat split; try lia; intros [|[|b]] x H; try discriminate; try (destruct b; discriminate); injection H as <-; constructor.
Qed.

(** Two hooks side by side are read as one beam: a dotted eighth and a sixteenth, then
    a sixteenth and a dotted eighth, with the sixteenths kept apart. *)
Theorem C106_hooks_refuted : exists bss js, marked 0 js bss /\
  exists bss', readBeams (map (@length beam) bss) (map getHumdrumBeamString bss) = Some bss' /\ ~ Forall2 (Forall2 same) bss bss'.
Proof.
  exists [[BStart]; [BContinue; BPartialLeft]; [BContinue; BPartialRight]; [BStop]], [1; 1; 1; 0]. split.
  - cbn. repeat split; try lia; intros [|[|b]] x H; try discriminate; try (destruct b; discriminate); injection H as <-; constructor.
  - eexists. split; [reflexivity|]. intros F.
    repeat match goal with H : Forall2 _ (_ :: _) _ |- _ => inversion H; clear H; subst end.
    repeat match goal with H : same _ _ |- _ => cbn in H end. discriminate.
Qed.
Print Assumptions C106_hooks_refuted.

(** At a secondary break a hook becomes the end of a beam that did not begin: a
    sixteenth, two thirty-seconds kept apart, a sixteenth. *)
Theorem C106_break_refuted : exists bss js, marked 0 js bss /\
  exists bss', readBeams (map (@length beam) bss) (map getHumdrumBeamString bss) = Some bss' /\
    map (fun bs => nth_error bs 2) bss' = [None; Some BStop; Some BPartialRight; None].
Proof.
  exists [[BStart; BStart]; [BContinue; BStop; BPartialLeft]; [BContinue; BStart; BPartialRight]; [BStop; BStop]], [2; 1; 2; 0]. split.
  - cbn. repeat split; try lia; intros [|[|[|b]]] x H; try discriminate; try (destruct b; discriminate); injection H as <-; constructor.
  - eexists. split; reflexivity.
Qed.
Print Assumptions C106_break_refuted.

(** * Rests. *)
Definition is_note (x : bitem) : bool := match x with BNote _ _ => true | BRest => false end.
(** The beams at the places of the notes. *)
Definition at_notes (xs : list bitem) (bss : list (list beam)) : list (list beam) :=
  map snd (filter (fun p => is_note (fst p)) (combine xs bss)).
Lemma go_rests : forall xs p pb k, is_note p = true -> (xs = [] \/ is_note (last xs BRest) = true) ->
  go p pb 0 (filter is_note xs) =
  option_map (at_notes (p :: repeat BRest k ++ xs)) (go p pb k xs).
Proof.
  assert (N : forall n, filter (fun p : bitem * list beam => is_note (fst p)) (combine (repeat BRest n) (repeat [] n)) = []) by (induction n; [reflexivity|assumption]).
  assert (N2 : forall n ys (zs : list (list beam)), at_notes (repeat BRest n ++ ys) (repeat [] n ++ zs) = at_notes ys zs) by (induction n; intros; [reflexivity|cbn; apply IHn]).
  assert (RS : forall n (ys : list bitem), repeat BRest n ++ BRest :: ys = BRest :: repeat BRest n ++ ys) by (induction n; intros; [reflexivity|cbn; f_equal; apply IHn]).
  induction xs as [|x xs IH]; intros p pb k NP L.
  - cbn [filter go option_map repeat]. f_equal. unfold at_notes. cbn [combine filter fst]. rewrite NP. rewrite app_nil_r. cbn [map snd]. rewrite N. reflexivity.
  - assert (L' : xs = [] \/ is_note (last xs BRest) = true) by (destruct xs; [left; reflexivity|right; destruct L as [L|L]; [discriminate|exact L]]).
    destruct x as [c br|]; cbn [filter is_note].
    + destruct p as [cp brp|]; [|discriminate]. cbn [go].
      replace (match filter is_note xs with [] => true | _ => false end) with (match xs with [] => true | _ => false end).
      2:{ destruct xs as [|y xs]; [reflexivity|]. destruct L' as [L'|L']; [discriminate|].
          destruct (filter is_note (y :: xs)) eqn:E; [|reflexivity]. exfalso.
          assert (IN : In (last (y :: xs) BRest) (filter is_note (y :: xs))).
          { apply filter_In. split; [|exact L']. destruct (@exists_last _ (y :: xs) ltac:(discriminate)) as (l & a & ->). rewrite last_last. apply in_or_app. right. left. reflexivity. }
          rewrite E in IN. destruct IN. }
      destruct (continueBeam _ cp brp pb c) as [[pb' bs]|]; [|reflexivity].
      rewrite (IH (BNote c br) bs 0 eq_refl L'). cbn [repeat app]. destruct (go (BNote c br) bs 0 xs) as [r|]; [|reflexivity].
      cbn [option_map]. f_equal. unfold at_notes at 2. cbn [combine filter fst is_note map snd]. f_equal.
      symmetry. apply N2.
    + cbn [go]. rewrite (IH p pb (S k) NP L'). rewrite RS. reflexivity.
Qed.
(** Rests inside a group change nothing for its notes. *)
Theorem C106_rests : forall x xs, is_note x = true -> (xs = [] \/ is_note (last xs BRest) = true) ->
  group (filter is_note (x :: xs)) = option_map (at_notes (x :: xs)) (group (x :: xs)).
Proof. intros [c br|] xs N L; [|discriminate]. cbn [filter is_note group]. apply (go_rests xs (BNote c br) _ 0 N L). Qed.
Print Assumptions C106_rests.
Example C106_rests_nonvacuous : group [BNote 1 0; BRest; BNote 2 0; BRest; BNote 2 0] =
  Some [[BStart]; []; [BContinue; BStart]; []; [BStop; BStop]].
Proof. reflexivity. Qed.

(** With a rest as its first token a group can stop the import of the file; or one
    note is left out of the beam, which ends without having begun.  With a rest as
    its last token it does not end. *)
Theorem C106_rest_first_refuted :
  group [BRest; BNote 2 0; BNote 1 0] = None /\
  group [BRest; BNote 1 0; BNote 1 0] = Some [[]; []; [BStop]] /\
  group [BNote 1 0; BNote 1 0; BRest] = Some [[BStart]; [BContinue]; []].
Proof. repeat split. Qed.
Print Assumptions C106_rest_first_refuted.

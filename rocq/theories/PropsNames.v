(** Property theorems C40, C41, C42 and C61: staff-group trees, xml ids, role
    names, staff-position names. *)
From Verif Require Import PyStr PyStrProofs NamesModel NamesProofs StaffGroupModel StaffGroupProofs.
From Coq Require Import Permutation Sorted.

(** C40.  The full statement is [forall groups, Permutation (groups of the
    forest) groups].  It is false: of three groups with the same staves beside a
    larger one, all three vanish. *)
Theorem C40_staff_groups_refuted : exists groups g,
  In g groups /\ Forall (@NoDup nat) groups /\ ~ In g (flat_map groups_of (getStaffGroupTrees groups)).
Proof.
  exists [[1;2];[1;2];[1;2];[1;2;3]], [1;2]. split; [left; reflexivity|]. split.
  - repeat constructor; cbn; intuition discriminate.
  - vm_compute. intuition discriminate.
Qed.
Print Assumptions C40_staff_groups_refuted.

(** C40, part: when no three groups have the same staves, every group occurs
    exactly once.  Missing: three or more groups on the same staves. *)
Theorem C40_staff_groups_partial : forall groups : list (list nat),
  (forall g, In g groups -> NoDup g) ->
  (forall a g1 b g2 c g3 d, groups = a ++ g1 :: b ++ g2 :: c ++ g3 :: d ->
     incl g1 g2 -> incl g2 g1 -> incl g1 g3 -> incl g3 g1 -> False) ->
  Permutation (flat_map groups_of (getStaffGroupTrees groups)) groups.
Proof.
  intros groups N C. apply staff_groups; [exact N|]. intros g _.
  destruct (le_lt_dec (length (filter (same g) groups)) 2) as [L|L]; [exact L|exfalso].
  assert (F : forall l : list staves, 0 < length (filter (same g) l) -> exists a x b, l = a ++ x :: b /\ same g x = true /\
    length (filter (same g) l) = S (length (filter (same g) b))).
  { induction l as [|y l IH]; cbn [filter length]; [lia|]. destruct (same g y) eqn:E.
    - intros _. exists [], y, l. split; [reflexivity|]. split; [exact E|reflexivity].
    - intros H. destruct (IH H) as (a & x & b & -> & S1 & S2). exists (y :: a), x, b. split; [reflexivity|]. split; [exact S1|exact S2]. }
  destruct (F groups ltac:(lia)) as (a & x & r1 & E1 & S1 & L1).
  destruct (F r1 ltac:(lia)) as (b & y & r2 & E2 & S2 & L2).
  destruct (F r2 ltac:(lia)) as (c & z & r3 & E3 & S3 & L3). subst r1 r2.
  unfold same in *. apply andb_true_iff in S1, S2, S3. rewrite !subset_incl in *.
  apply (C a x b y c z r3 E1); (eapply incl_tran; [|]); try apply S1; try apply S2; try apply S3.
Qed.
Print Assumptions C40_staff_groups_partial.

(** C40, the rest of the statement, without restriction: every child lies in
    its parent, which is a smallest group strictly containing it when there is
    one; no top-level group lies strictly inside another group; siblings are in
    order of their lowest staff. *)
Theorem C40_staff_group_nesting : forall groups : list (list nat),
  (forall g, In g groups -> NoDup g) ->
  let forest := getStaffGroupTrees groups in
  StronglySorted le (map (fun t => lowest (root t)) forest) /\
  (forall t q, In t forest -> In q groups -> incl (root t) q -> incl q (root t)) /\
  (forall t g ch, In t forest -> node_of (Node g ch) t ->
     StronglySorted le (map (fun t => lowest (root t)) ch) /\
     forall c, In c ch -> incl (root c) g /\
       forall q, In q groups -> incl (root c) q -> ~ incl q (root c) -> length g <= length q).
Proof. exact staff_nodes. Qed.
Print Assumptions C40_staff_group_nesting.

Example C40_nonvacuous :
  getStaffGroupTrees [[3;4]; [1;2;3;4]; [1;2]; [3;4]; [5]] =
    [Node [1;2;3;4] [Node [1;2] []; Node [3;4] [Node [3;4] []]]; Node [5] []].
Proof. vm_compute. reflexivity. Qed.

(** C41. *)
Theorem C41_xml_ids_distinct : forall (min_id : N) (prefix : str) (a b : Z),
  a <> b -> makeXmlIdFrom min_id a prefix <> makeXmlIdFrom min_id b prefix.
Proof. intros m p a b H E. apply H. exact (makeXmlIdFrom_inj m p a b E). Qed.
Print Assumptions C41_xml_ids_distinct.

Example C41_nonvacuous :
  makeXmlIdFrom 100000000 140735340871680 (S_ "note") = S_ "note-zxygjfoonw" /\
  makeXmlIdFrom 100000000 17 (S_ "note") = S_ "note-17" /\
   makeXmlIdFrom 100000000 17 [] = S_ "17" /\
   makeXmlIdFrom 5 26 (S_ "n") = S_ "n-ba" /\
   makeXmlIdFrom 5 13 (S_ "N") = S_ "n".
Proof. vm_compute. repeat split. Qed.

(** C42.  From camel case to words and back. *)
Theorem C42_camel_to_words : forall s : str,
  char_in " " s = false -> spaceDelimitedToCamelCase (camelCaseToSpaceDelimited s) = s.
Proof. exact camel_words. Qed.
Print Assumptions C42_camel_to_words.

(** A word: no space, no capital; words after the first start with a letter. *)
Definition plain (w : str) : Prop := forall c, In c w -> c <> " "%char /\ is_upper c = false.
Definition later_word (w : str) : Prop := plain w /\ exists c w', w = c :: w' /\ is_lower c = true.
Definition capitalize (w : str) : str := match w with [] => [] | c :: w' => to_upper c :: w' end.

(** From words to camel case and back; what the camel case is. *)
Theorem C42_words_to_camel : forall (w : str) (ws : list str), plain w -> Forall later_word ws ->
  spaceDelimitedToCamelCase (join (S_ " ") (w :: ws)) = w ++ concat (map capitalize ws) /\
  camelCaseToSpaceDelimited (spaceDelimitedToCamelCase (join (S_ " ") (w :: ws))) = join (S_ " ") (w :: ws).
Proof.
  assert (TC : forall w r, plain w -> to_camel false (w ++ r) = w ++ to_camel false r).
  { induction w as [|c w IH]; intros r P; [reflexivity|]. cbn [app to_camel]. destruct (P c (or_introl eq_refl)) as [N U].
    apply Ascii.eqb_neq in N. rewrite N, not_upper by exact U. f_equal. apply IH. intros x X. apply P. right. exact X. }
  assert (TW : forall w r, plain w -> words false (w ++ r) <-> words false r).
  { induction w as [|c w IH]; intros r P; [reflexivity|]. cbn [app words]. destruct (P c (or_introl eq_refl)) as [N U].
    apply Ascii.eqb_neq in N. rewrite N, IH; [tauto|]. intros x X. apply P. right. exact X. }
  assert (J : forall w ws, join (S_ " ") (w :: ws) = w ++ flat_map (fun x => " "%char :: x) ws).
  { intros w ws. revert w. induction ws as [|x ws IH]; intros w; [cbn; rewrite app_nil_r; reflexivity|].
    change (join (S_ " ") (w :: x :: ws)) with (w ++ S_ " " ++ join (S_ " ") (x :: ws)). rewrite IH. reflexivity. }
  intros w ws P F. rewrite J. split.
  - unfold spaceDelimitedToCamelCase. rewrite TC by exact P. f_equal. clear P w. induction F as [|x ws [P1 (c & w' & -> & L)] F IH]; [reflexivity|].
    cbn [flat_map app map concat capitalize]. cbn [to_camel]. rewrite Ascii.eqb_refl.
    destruct (P1 c (or_introl eq_refl)) as [N U]. apply Ascii.eqb_neq in N. rewrite N. f_equal.
    rewrite TC, IH; [reflexivity|]. intros y Y. apply P1. right. exact Y.
  - apply words_camel. apply TW; [exact P|]. clear P w. induction F as [|x ws [P1 (c & w' & -> & L)] F IH]; [reflexivity|].
    cbn [flat_map app words]. rewrite Ascii.eqb_refl. destruct (P1 c (or_introl eq_refl)) as [N U]. apply Ascii.eqb_neq in N. rewrite N.
    split; [reflexivity|]. split; [exact L|]. apply TW; [|exact IH]. intros y Y. apply P1. right. exact Y.
Qed.
Print Assumptions C42_words_to_camel.

Example C42_nonvacuous :
  camelCaseToSpaceDelimited (S_ "attributedComposer") = S_ "attributed composer" /\
  spaceDelimitedToCamelCase (join (S_ " ") [S_ "original"; S_ "document"; S_ "owner"]) = S_ "originalDocumentOwner" /\
  plain (S_ "original") /\ Forall later_word [S_ "document"; S_ "owner"].
Proof.
  split; [reflexivity|]. split; [reflexivity|].
  assert (P : forall w, forallb (fun c => negb (Ascii.eqb c " ") && negb (is_upper c)) w = true -> plain w).
  { intros w H c I. rewrite forallb_forall in H. specialize (H c I). apply andb_true_iff in H. destruct H as [H1 H2].
    apply negb_true_iff in H1, H2. apply Ascii.eqb_neq in H1. split; assumption. }
  split; [apply P; reflexivity|]. constructor; [|constructor; [|constructor]]; (split; [apply P; reflexivity|]); eexists; eexists; split; reflexivity.
Qed.

(** C61.  The full statement is for every staff position; below octave 0 the
    minus sign of the octave is read as a flat. *)
Theorem C61_display_name_refuted : exists b : Z,
  splitM21PitchNameIntoNameAccidOctave (base7ToDisplayName b) = (S_ "B", S_ "-", S_ "1") /\ pitchToBase7 "B" 1 <> Some b.
Proof. exists (-1)%Z. split; [vm_compute; reflexivity|]. vm_compute. discriminate. Qed.
Print Assumptions C61_display_name_refuted.

(** C61, part: from octave 0 up.  Missing: negative octaves. *)
Theorem C61_display_name_partial : forall b : Z, (0 <= b)%Z ->
  exists step octave, splitM21PitchNameIntoNameAccidOctave (base7ToDisplayName b) = ([step], S_ "n", octave) /\
    pitchToBase7 step (Z.of_N (parse_N octave)) = Some b.
Proof. exact display_name. Qed.
Print Assumptions C61_display_name_partial.

Example C61_nonvacuous : splitM21PitchNameIntoNameAccidOctave (base7ToDisplayName 33) = (S_ "A", S_ "n", S_ "4").
Proof. vm_compute. reflexivity. Qed.

(** Property theorems C15-C19, C57, C58: spines, links, tracks. *)
From Verif Require Import PyStr PyStrProofs LayoutModel TextModel SpineModel SpineProofs SpineProofs2 LinkProofs.

(** To run the model on the examples. *)
Definition acceptedb (lines : list str) : bool :=
  match analyzeSpines lines, analyzeLinks lines with
  | Some (infos, _), Fine _ => forallb (fun labs => match analyzeTracks labs with Some _ => true | None => false end) infos
  | _, _ => false
  end.
Lemma acceptedb_spec lines : acceptedb lines = true -> accepted lines.
Proof.
  unfold acceptedb, accepted. destruct (analyzeSpines lines) as [[infos fin]|]; [|discriminate].
  destruct (analyzeLinks lines) as [g| |]; try discriminate. intros H. exists infos, fin, g.
  split; [reflexivity|]. split; [reflexivity|]. apply Forall_forall. intros l Hl E.
  apply (proj1 (forallb_forall _ _)) with (x := l) in H; [|exact Hl]. rewrite E in H. discriminate.
Qed.

Definition T (l : list str) : str := join [tab] l.

(** C15.  Full statement: in an accepted file, the number of tokens of each
    spined line is the number of spines the Humdrum rules ([rule],
    [spines_after] in SpineProofs.v) leave open after the spined line before it.
    The rules give at most one number for a line: *)
Theorem C15_rules_deterministic : forall toks n m, spines_after toks n -> spines_after toks m -> n = m.
Proof. exact spines_after_det. Qed.
Print Assumptions C15_rules_deterministic.

(** Full statement: [forall lines p q, accepted lines ->
    consecutive p q (spined lines) -> spines_after (tokens p) (length (tokens q))].
    False in three ways: manipulators on the opening line are not counted
    (first file), and on a line that does not start with an asterisk a lone
    [*v] in the last field goes unnoticed (second file). *)
Theorem C15_spine_count_refuted :
  (exists lines p q, accepted lines /\ consecutive p q (spined lines) /\
     exists n, spines_after (tokens p) n /\ n <> length (tokens q)) /\
  (exists lines p q, accepted lines /\ consecutive p q (spined lines) /\
     opens_cleanly lines /\ ~ spines_after (tokens p) (length (tokens q))).
Proof.
  split.
  - exists [T [S_ "**kern"; S_ "*^"]; T [S_ "4c"; S_ "4d"]], (T [S_ "**kern"; S_ "*^"]), (T [S_ "4c"; S_ "4d"]).
    split; [|split].
    + apply acceptedb_spec. vm_compute. reflexivity.
    + exists [], []. reflexivity.
    + exists 3. split; [|intro X; vm_compute in X; discriminate X].
      replace (tokens (T [S_ "**kern"; S_ "*^"])) with [S_ "**kern"; S_ "*^"] by (vm_compute; reflexivity).
      do 2 eexists. apply rule_one.
      * intro X. apply exclusive_not_manip in X; [exact X|reflexivity].
      * apply rule_split. apply rule_nil.
  - exists [T [S_ "**kern"; S_ "**kern"; S_ "**kern"]; T [S_ "4c"; S_ "*^"; S_ "*v"]; T [S_ "4c"; S_ "4d"; S_ "4e"]],
      (T [S_ "4c"; S_ "*^"; S_ "*v"]), (T [S_ "4c"; S_ "4d"; S_ "4e"]).
    split; [|split; [|split]].
    + apply acceptedb_spec. vm_compute. reflexivity.
    + exists [T [S_ "**kern"; S_ "**kern"; S_ "**kern"]], []. reflexivity.
    + intros l t H. vm_compute in H. injection H as <-. vm_compute.
      intros [<-|[<-|[<-|[]]]]; reflexivity.
    + intros (lk & ad & R). apply rule_rulep in R.
      assert (L : rulep [S_ "*v"] 0 0 (tokens (T [S_ "4c"; S_ "*^"; S_ "*v"])) [(0, 0); (0 + 1, 1); (0 + 1, 2)] [] 3).
      { replace (tokens (T [S_ "4c"; S_ "*^"; S_ "*v"])) with [S_ "4c"; S_ "*^"; S_ "*v"] by (vm_compute; reflexivity).
        apply rulep_one; [intro X; vm_compute in X; repeat destruct X as [X|X]; try discriminate X; exact X|].
        apply rulep_split. apply rulep_nil. }
      destruct (stitch_rulep (repeat (S_ "**") 3) _ _ _ _ _ _ _ R ltac:(reflexivity) []) as [(i' & E)|(E & _)];
        vm_compute in E; discriminate E.
Qed.
Print Assumptions C15_spine_count_refuted.

(** Proved when the opening line has only exclusive interpretations and
    manipulators only occur on lines that start with an asterisk (missing: the
    files above). *)
Theorem C15_spine_count_partial : forall lines p q,
  accepted lines -> opens_cleanly lines -> manipulators_on_interpretation_lines lines ->
  consecutive p q (spined lines) -> spines_after (tokens p) (length (tokens q)).
Proof. exact accepted_counts. Qed.
Print Assumptions C15_spine_count_partial.

Definition c15_file : list str :=
  [S_ "!!!COM: Bach"; T [S_ "**kern"; S_ "**kern"]; T [S_ "*^"; S_ "*"]; T [S_ "4c"; S_ "4e"; S_ "4g"];
   []; T [S_ "*"; S_ "*x"; S_ "*x"]; T [S_ "*v"; S_ "*"; S_ "*v"] ; T [S_ "*-"; S_ "*-"]].
Definition c15_file' : list str :=
  [S_ "!!!COM: Bach"; T [S_ "**kern"; S_ "**kern"]; T [S_ "*^"; S_ "*"]; T [S_ "4c"; S_ "4e"; S_ "4g"];
   []; T [S_ "*v"; S_ "*v"; S_ "*"] ; T [S_ "*+"; S_ "*"]; T [S_ "*"; S_ "**text"; S_ "*"];
   T [S_ "*"; S_ "*x"; S_ "*x"]; T [S_ "4c"; S_ "4d"; S_ "la"]; T [S_ "*-"; S_ "*-"; S_ "*-"]].
(** Accepted by all three analyses, with its hypotheses; [c15_file] (two merge
    indicators that are not adjacent) is rejected. *)
Example C15_nonvacuous :
  accepted c15_file' /\ opens_cleanly c15_file' /\ manipulators_on_interpretation_lines c15_file' /\
  consecutive (T [S_ "*v"; S_ "*v"; S_ "*"]) (T [S_ "*+"; S_ "*"]) (spined c15_file') /\
  analyzeSpines c15_file = None.
Proof.
  split; [|split; [|split; [|split]]].
  - apply acceptedb_spec. vm_compute. reflexivity.
  - intros l t H. vm_compute in H. injection H as <-. vm_compute. intros [<-|[<-|[]]]; reflexivity.
  - intros l t H Ht Hm.
    assert (E : forallb (fun l => isInterpretationLine l || negb (existsb (fun t => existsb (str_eqb t) manipulators) (tokens l)))
                  (spined c15_file') = true) by (vm_compute; reflexivity).
    apply (proj1 (forallb_forall _ _)) with (x := l) in E; [|exact H].
    apply orb_true_iff in E. destruct E as [E|E]; [exact E|].
    apply negb_true_iff in E. exfalso.
    assert (X : existsb (fun t => existsb (str_eqb t) manipulators) (tokens l) = true).
    { apply existsb_exists. exists t. split; [exact Ht|]. apply existsb_exists. exists t. split; [exact Hm|]. apply str_eqb_refl. }
    congruence.
  - exists [T [S_ "**kern"; S_ "**kern"]; T [S_ "*^"; S_ "*"]; T [S_ "4c"; S_ "4e"; S_ "4g"]]. eexists.
    vm_compute. reflexivity.
  - vm_compute. reflexivity.
Qed.

(** C16.  A block of lines in which every split is undone, after a block of the
    same sort, by the merge of its two halves, leaves the spines (their number,
    types, labels) and the tracks as they were; at any nesting depth. *)
Theorem C16_split_merge_restores : forall n lines, balanced n lines -> forall ln st,
  length (s_type st) = n -> length (s_info st) = n ->
  exists infos, spine_lines ln lines st = Some (infos, st).
Proof. exact balanced_restores. Qed.
Print Assumptions C16_split_merge_restores.

(** All the open sub-spines of a spine merged at once, however it was split. *)
Theorem C16_merge_all_at_once : forall X t ln left right d1 d ds d2 f1 f2 tr,
  X <> [] -> 2 <= leaves t -> Forall plain left -> Forall plain right ->
  length d1 = length left -> length f1 = length left -> length d2 = length right -> length f2 = length right ->
  S (length ds) = leaves t ->
  spine_line ln (left ++ repeat (S_ "*v") (leaves t) ++ right)
    (mkS (d1 ++ d :: ds ++ d2) (f1 ++ labels X t ++ f2) tr) =
  Some (mkS (d1 ++ d :: d2) (f1 ++ X :: f2) tr).
Proof.
  intros. apply merge_line; auto; [apply labels_length|]. apply merge_labels; auto.
Qed.
Print Assumptions C16_merge_all_at_once.

(** A sub-spine of spine [n], at any depth, belongs to track [n]. *)
Theorem C16_track_of_subspine : forall n X, spine_label n X -> label_track X = n.
Proof. exact spine_label_track. Qed.
Print Assumptions C16_track_of_subspine.

Example C16_nonvacuous :
  balanced 2 [T [S_ "*"; S_ "*^"]; T [S_ "*^"; S_ "*"; S_ "*"]; T [S_ "4c"; S_ "."; S_ "."; S_ "4d"];
              T [S_ "*v"; S_ "*v"; S_ "*"; S_ "*"]; T [S_ "*"; S_ "*v"; S_ "*v"]; S_ "!! x"; T [S_ "="; S_ "="]] /\
  labels (S_ "3") (Both Open (Both (Both Open Open) Open)) =
    [S_ "(3)a"; S_ "(((3)b)a)a"; S_ "(((3)b)a)b"; S_ "((3)b)b"] /\
  spine_label 3 (S_ "(((3)b)a)a").
Proof.
  assert (P : forall t, (existsb (str_eqb t) manipulators || starts_with (S_ "**") t) = false -> plain t).
  { intros t H. apply orb_false_iff in H. destruct H as [H1 H2]. split; [|exact H2]. intros I.
    assert (existsb (str_eqb t) manipulators = true).
    { apply existsb_exists. exists t. split; [exact I|apply str_eqb_refl]. }
    congruence. }
  split; [|split; [reflexivity|exact (sl_half 3 "a" (S_ "((3)b)a") (sl_half 3 "a" (S_ "(3)b") (sl_half 3 "b" (S_ "3") (sl_top 3))))]].
  apply (bal_split 1 0 (T [S_ "*"; S_ "*^"]) (T [S_ "*"; S_ "*v"; S_ "*v"])
     [T [S_ "*^"; S_ "*"; S_ "*"]; T [S_ "4c"; S_ "."; S_ "."; S_ "4d"]; T [S_ "*v"; S_ "*v"; S_ "*"; S_ "*"]]
     [S_ "!! x"; T [S_ "="; S_ "="]] [S_ "*"] [] [S_ "*"] []);
    try reflexivity; try (repeat constructor; apply P; reflexivity).
  apply (bal_split 0 2 (T [S_ "*^"; S_ "*"; S_ "*"]) (T [S_ "*v"; S_ "*v"; S_ "*"; S_ "*"])
      [T [S_ "4c"; S_ "."; S_ "."; S_ "4d"]] [] [] [S_ "*"; S_ "*"] [] [S_ "*"; S_ "*"]);
      try reflexivity; try (repeat constructor; apply P; reflexivity); try apply bal_nil.
Qed.

(** C17.  Links are symmetric (as multisets), and join existing tokens of
    consecutive spined lines. *)
Theorem C17_links_symmetric : forall lines g, analyzeLinks lines = Fine g ->
  forall a b, count_occ ref_dec (nextTokens g a) b = count_occ ref_dec (previousTokens g b) a.
Proof.
  intros lines g H. apply (analyzeLinks_symmetric _ _ _ _ _ H). intros a b. reflexivity.
Qed.
Print Assumptions C17_links_symmetric.

Theorem C17_links_consecutive : forall lines g, analyzeLinks lines = Fine g ->
  forall a b, In b (nextTokens g a) ->
    exists p q, adjacent_lines lines (fst a) (fst b) p q /\
      snd a < length (tokens p) /\ snd b < length (tokens q).
Proof.
  intros lines g H a b I. apply (analyzeLinks_exact _ _ H) in I. destruct I as (p & q & links & A & B & C).
  exists p, q. split; [exact A|]. eapply stitch_in_range; eassumption.
Qed.
Print Assumptions C17_links_consecutive.

(** In an accepted file (same conditions as C15) the links are exactly those of
    the Humdrum rules. *)
Theorem C17_links_follow_rules : forall lines g,
  accepted lines -> opens_cleanly lines -> manipulators_on_interpretation_lines lines ->
  analyzeLinks lines = Fine g ->
  forall a b, In b (nextTokens g a) <->
    exists p q links adds, adjacent_lines lines (fst a) (fst b) p q /\
      rule 0 0 (tokens p) links adds (length (tokens q)) /\ In (snd a, snd b) links.
Proof.
  intros lines g A O M H a b. rewrite (analyzeLinks_exact _ _ H). split.
  - intros (p & q & links & AD & ST & I).
    destruct (accepted_links _ _ _ A O M (adjacent_consecutive _ _ _ _ _ AD)) as (lk & ad & R & ST').
    exists p, q, lk, ad. rewrite ST in ST'. injection ST' as <-. auto.
  - intros (p & q & links & adds & AD & R & I).
    destruct (accepted_links _ _ _ A O M (adjacent_consecutive _ _ _ _ _ AD)) as (lk & ad & R' & ST').
    exists p, q, lk. destruct (rule_det _ _ _ _ _ _ _ R R') as (<- & _). auto.
Qed.
Print Assumptions C17_links_follow_rules.

Example C17_nonvacuous : match analyzeLinks c15_file' with
  | Fine g =>
      nextTokens g (2, 0) = [(3, 0); (3, 1)] /\ previousTokens g (6, 0) = [(5, 0); (5, 1)] /\
      nextTokens g (8, 1) = [(9, 2)] /\ previousTokens g (7, 1) = [] /\ nextTokens g (3, 2) = [(5, 2)]
  | _ => False
  end.
Proof. vm_compute. auto. Qed.

(** C18.  Full statement: the tokens of a track that occurs n > 1 times on a
    line carry sub-track numbers 1..n from left to right and sub-track count n,
    those of a track that occurs once sub-track 0.  The sub-track count is never
    set: *)
Theorem C18_subtrack_count_refuted : exists labs addrs a,
  analyzeTracks labs = Some addrs /\ nth_error addrs 0 = Some a /\
  occ 1 (map label_track labs) = 2 /\ label_track (nth 0 labs []) = 1%N /\ subTrackCount a = 0%N.
Proof. exists [S_ "(1)a"; S_ "(1)b"]. do 2 eexists. vm_compute. repeat split. Qed.
Print Assumptions C18_subtrack_count_refuted.

(** Everything but the count. *)
Theorem C18_subtracks_partial : forall labs addrs, analyzeTracks labs = Some addrs ->
  map trackNum addrs = map (fun lab => Some (label_track lab)) labs /\
  forall k lab a, nth_error labs k = Some lab -> nth_error addrs k = Some a ->
    let tracks := map label_track labs in
    let n := label_track lab in
    (1 < occ n tracks -> subTrack a = Z.of_nat (occ n (firstn k tracks) + 1)) /\
    (occ n tracks = 1 -> subTrack a = 0%Z).
Proof.
  intros labs addrs H. destruct (analyzeTracks_spec _ _ H) as (A & B). split; [exact A|].
  intros k lab a K1 K2. rewrite (B _ _ _ K1 K2). unfold expected_subtrack. cbv zeta.
  destruct (1 <? occ (label_track lab) (map label_track labs)) eqn:E.
  - apply Nat.ltb_lt in E. split; [intros _; f_equal; lia|lia].
  - apply Nat.ltb_ge in E. split; [lia|reflexivity].
Qed.
Print Assumptions C18_subtracks_partial.

Example C18_nonvacuous : exists addrs,
  analyzeTracks [S_ "(1)a"; S_ "2"; S_ "((1)b)a"; S_ "(3)a"; S_ "((1)b)b"; S_ "(3)b"] = Some addrs /\
  map subTrack addrs = [1; 0; 2; 1; 3; 2]%Z.
Proof. eexists. split; vm_compute; reflexivity. Qed.

(** C19.  Full statement: whenever the spine analysis succeeds on a file so does
    the link analysis.  False for a lone [*v] in the last field of a line, which
    the first pass lets through and on which the second raises: *)
Theorem C19_passes_agree_refuted : exists lines r,
  analyzeSpines lines = Some r /\ opens_cleanly lines /\ manipulators_on_interpretation_lines lines /\
  analyzeLinks lines = Raised.
Proof.
  exists [T [S_ "**kern"; S_ "**kern"]; T [S_ "*"; S_ "*v"]; S_ "4c"]. eexists.
  split; [vm_compute; reflexivity|]. split; [|split; [|reflexivity]].
  - intros l t H. vm_compute in H. injection H as <-. vm_compute. intros [<-|[<-|[]]]; reflexivity.
  - intros l t H Ht Hm. cbn [spined filter] in H. vm_compute in H.
    destruct H as [<-|[<-|[<-|[]]]]; try reflexivity. exfalso.
    vm_compute in Ht. destruct Ht as [<-|[]]. vm_compute in Hm.
    repeat destruct Hm as [Hm|Hm]; try discriminate Hm; exact Hm.
Qed.
Print Assumptions C19_passes_agree_refuted.

(** Otherwise it holds: opening line and manipulators as in C15, every [*+]
    followed by an exclusive interpretation in the new spine, no line before
    the last ending in a lone [*v]. *)
Theorem C19_passes_agree_partial : forall lines r,
  analyzeSpines lines = Some r -> opens_cleanly lines -> manipulators_on_interpretation_lines lines ->
  added_spines_start lines ->
  (forall p q, consecutive p q (spined lines) -> ~ ends_in_single_merge (tokens p)) ->
  exists g, analyzeLinks lines = Fine g.
Proof. exact spines_imply_links. Qed.
Print Assumptions C19_passes_agree_partial.

(** The number of spines the first pass computes for a manipulator line is the
    number of tokens the second consumes. *)
Theorem C19_counts_agree : forall ln toks st st' links adds n next,
  adjustSpines ln toks st = Some st' -> rule 0 0 toks links adds n ->
  (forall a, In a adds -> starts_spine next a) -> length next = n ->
  length (s_type st') = n /\ stitch_loop next toks 0 (mkSt 0 false 0 []) = Fine (mkSt n false 0 links).
Proof.
  intros ln toks st st' links adds n next HA R Ha L. split.
  - destruct (adjust_count _ _ _ _ HA) as (_ & [(l' & a' & R')|(l' & a' & R')]).
    + symmetry. apply (rule_det _ _ _ _ _ _ _ R R').
    + exfalso. pose proof (rule_rulep _ _ _ _ _ _ R) as RP.
      set (m := length (s_type st')) in *. set (nx := repeat (S_ "**") m).
      destruct (stitch_lone nx _ _ _ _ R' (repeat_length _ _)) as [E|E].
      * (* the first pass and the rules disagree about a lone merge *)
        assert (G : forall rest i j ts lk ad k, rulep rest i j ts lk ad k -> rest = [] -> forall l2 a2 k2,
                  rulep [S_ "*v"] i j ts l2 a2 k2 -> False).
        { clear. intros rest i j ts lk ad k R1 ->. apply rulep_rule in R1. intros l2 a2 k2 R2.
          pose proof (rulep_lone _ _ _ _ _ _ R2) as (pre & E & L).
          revert pre E L. clear R2. induction R1 as [i j|i j t ts ? ? ? Ht R IH|i j ts ? ? ? R IH|i j ts ? ? ? R IH
            |i j ts ? ? ? R IH|i j ts ? ? ? R IH|i j k ts ? ? ? Hk Hh R IH]; intros pre E L.
          - destruct pre; discriminate.
          - destruct pre as [|x pre]; injection E as E1 E2; [subst; apply Ht; unfold manipulators; cbn [In]; auto|].
            eapply IH; [exact E2|]. destruct pre; [intro Y; discriminate Y|exact L].
          - destruct pre as [|x pre]; [discriminate|]. injection E as E1 E2.
            eapply IH; [exact E2|]. destruct pre; [intro Y; discriminate Y|exact L].
          - destruct pre as [|x pre]; [discriminate|]. injection E as E1 E2.
            eapply IH; [exact E2|]. destruct pre; [intro Y; discriminate Y|exact L].
          - destruct pre as [|x pre]; [discriminate|]. injection E as E1 E2.
            eapply IH; [exact E2|]. destruct pre; [intro Y; discriminate Y|exact L].
          - destruct pre as [|x [|y pre]]; [discriminate|discriminate|]. injection E as E1 E2 E3.
            eapply IH; [exact E3|]. destruct pre; [intro Y; discriminate Y|exact L].
          - destruct ts as [|u ts].
            + rewrite app_nil_r in E. destruct k as [|[|k]]; try lia.
              assert (E' : repeat (S_ "*v") (S (S k)) = repeat (S_ "*v") (S k) ++ [S_ "*v"]) by (rewrite <- repeat_cons; reflexivity).
              rewrite E' in E. apply app_inj_tail in E. destruct E as [<- _].
              apply L. rewrite repeat_S, repeat_cons, last_last. reflexivity.
            + destruct (exists_last (l := u :: ts) ltac:(discriminate)) as (us & z & E2). rewrite E2 in E.
              rewrite app_assoc in E. apply app_inj_tail in E. destruct E as [<- ->].
              eapply (IH us); [exact E2|]. destruct us as [|w us]; [intro Y; discriminate Y|].
              rewrite last_app_cons in L. exact L. }
        exact (G _ _ _ _ _ _ _ RP eq_refl _ _ _ R').
      * assert (G : forall rest i j ts lk ad k, rulep rest i j ts lk ad k -> Forall (fun p => p < j + k) ad).
        { clear. induction 1; try constructor; try lia; eapply Forall_impl; try eassumption; cbn beta; intros; lia. }
        destruct (stitch_rulep nx _ _ _ _ _ _ _ R' ltac:(unfold nx; rewrite repeat_length; lia) []) as [(i' & E2)|(_ & p & Hp & Hn)].
        -- rewrite E in E2. symmetry in E2. rewrite stitch_cons in E2. unfold stitch_token in E2.
           change (kind (S_ "*v")) with KMerge in E2. cbv iota in E2. cbn [st_idx] in E2.
           destruct (has _ _); discriminate E2.
        -- apply Hn. pose proof (proj1 (Forall_forall _ _) (G _ _ _ _ _ _ _ R') p Hp) as X. cbn beta in X.
           exists (S_ "**"). split; [|reflexivity]. unfold nx. rewrite nth_error_repeat by lia. reflexivity.
  - subst n. destruct (stitch_rule _ _ _ _ R) as [E|(E & a & Ia & Na)]; [exact E|].
    elim Na. apply Ha. exact Ia.
Qed.
Print Assumptions C19_counts_agree.

Example C19_nonvacuous :
  exists st', adjustSpines 5 [S_ "*v"; S_ "*v"; S_ "*+"; S_ "*^"; S_ "*-"; S_ "*x"; S_ "*x"]
    (mkS [S_ "**kern"; S_ "**kern"; S_ "**text"; S_ "**kern"; S_ "**kern"; S_ "**kern"; S_ "**kern"]
         [S_ "(1)a"; S_ "(1)b"; S_ "2"; S_ "3"; S_ "4"; S_ "5"; S_ "6"]
         (mkTracks [None; Some (0, 0)] [[]; []])) = Some st' /\
    s_info st' = [S_ "1"; S_ "2"; S_ "2"; S_ "(3)a"; S_ "(3)b"; S_ "6"; S_ "5"] /\
    rule 0 0 [S_ "*v"; S_ "*v"; S_ "*+"; S_ "*^"; S_ "*-"; S_ "*x"; S_ "*x"]
      [(0, 0); (1, 0); (2, 1); (3, 3); (3, 4); (6, 5); (5, 6)] [2] 7.
Proof.
  eexists. split; [vm_compute; reflexivity|]. split; [reflexivity|].
  apply (rule_merge 0 0 2 [S_ "*+"; S_ "*^"; S_ "*-"; S_ "*x"; S_ "*x"]
    [(2, 1); (3, 3); (3, 4); (6, 5); (5, 6)] [2] 6); [lia|intro X; discriminate X|].
  apply rule_add. apply rule_split. apply rule_terminate. apply rule_exchange. apply rule_nil.
Qed.

(** C57.  Full statement: the ends recorded for a track are the terminators of
    that track.  False, they are all recorded for the last track: *)
Theorem C57_track_ends_refuted : exists lines infos fin,
  analyzeSpines lines = Some (infos, fin) /\ opens_cleanly lines /\
  infos = [[S_ "1"; S_ "2"]; [S_ "1"; S_ "2"]] /\
  file_terminators 0 lines = [(1, 0); (1, 1)] /\
  nth 1 (trackEnds (s_tracks fin)) [] = [] /\ nth 2 (trackEnds (s_tracks fin)) [] = [(1, 0); (1, 1)].
Proof.
  exists [T [S_ "**kern"; S_ "**kern"]; T [S_ "*-"; S_ "*-"]]. do 2 eexists.
  split; [vm_compute; reflexivity|]. split; [|vm_compute; repeat split].
  intros l t H. vm_compute in H. injection H as <-. vm_compute. intros [<-|[<-|[]]]; reflexivity.
Qed.
Print Assumptions C57_track_ends_refuted.

(** What holds: over all tracks, the ends recorded are exactly the terminators of
    the file in reading order, each once (missing: the track they are filed
    under). *)
Theorem C57_track_ends_partial : forall lines infos fin,
  analyzeSpines lines = Some (infos, fin) -> opens_cleanly lines ->
  concat (trackEnds (s_tracks fin)) = file_terminators 0 lines.
Proof. exact track_ends_exact. Qed.
Print Assumptions C57_track_ends_partial.

Example C57_nonvacuous : file_terminators 0 c15_file' = [(10, 0); (10, 1); (10, 2)].
Proof. vm_compute. reflexivity. Qed.

(** C58.  Full statement: a spine made by merging spines belongs to the track of
    one of them.  False for two whole spines with one-digit numbers (the merged
    spine has track 0), and three such spines make the reader crash: *)
Theorem C58_merged_track_refuted :
  (exists lab, getMergedSpineInfo [S_ "1"; S_ "2"] 0 1 = Some lab /\ label_track lab = 0%N) /\
  getMergedSpineInfo [S_ "1"; S_ "2"; S_ "3"] 0 2 = None.
Proof. split; [eexists; split|]; vm_compute; reflexivity. Qed.
Print Assumptions C58_merged_track_refuted.

(** What holds: sub-spines of one spine merged as they were split (C16 above),
    and two spines whose labels differ in more than their last character. *)
Theorem C58_merged_track_partial : forall f1 x y f2 n m,
  spine_label n x -> spine_label m y -> butlast x <> butlast y ->
  exists lab, getMergedSpineInfo (f1 ++ x :: y :: f2) (length f1) 1 = Some lab /\ label_track lab = n.
Proof.
  intros f1 x y f2 n m Hx Hy N. unfold getMergedSpineInfo. change (1 <? 1) with false. change (1 =? 1) with true.
  cbv iota zeta.
  assert (N1 : nth (length f1) (f1 ++ x :: y :: f2) [] = x) by (apply nth_at; reflexivity).
  assert (N2 : nth (S (length f1)) (f1 ++ x :: y :: f2) [] = y)
    by exact (@nth_prefix str [] f1 (x :: y :: f2) (length f1) 1 eq_refl).
  rewrite N1, N2. destruct (str_eqb (butlast x) (butlast y)) eqn:E; [apply str_eqb_eq in E; contradiction|].
  eexists. split; [reflexivity|].
  destruct (spine_label_form _ _ Hx) as (k & s & -> & Hs). rewrite <- !app_assoc. clear - Hs.
  induction k as [|k IH]; cbn [repeat app].
  - rewrite span_digits_app; [apply parse_show_N|apply show_N_digits| |].
    + destruct (show_N_cons n) as (c & t & -> & _). discriminate.
    + destruct s; [reflexivity|exact Hs].
  - rewrite label_track_paren. exact IH.
Qed.
Print Assumptions C58_merged_track_partial.

Example C58_nonvacuous : spine_label 1 (S_ "(1)b") /\ spine_label 2 (S_ "2") /\ butlast (S_ "(1)b") <> butlast (S_ "2").
Proof.
  split; [apply (sl_half 1 "b"%char (S_ "1")); apply (sl_top 1)|]. split; [apply (sl_top 2)|].
  intro X. vm_compute in X. discriminate X.
Qed.

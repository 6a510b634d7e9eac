(** Proofs about the spine analysis. *)
From Verif Require Import PyStr PyStrProofs LayoutModel TextModel SpineModel.

(** ** The Humdrum rules for spine manipulators, stated on their own

    [rule i j toks links adds n]: reading the tokens [toks] of a line, the first
    of which is in field [i], when the next spine of the following line is in
    field [j], opens [n] fields on the following line; [links] are the pairs
    (field, field of the following line) of one spine, [adds] the fields of the
    following line where a new spine starts. *)
Definition manipulators : list str := [S_ "*^"; S_ "*v"; S_ "*+"; S_ "*x"; S_ "*-"].

Inductive rule : nat -> nat -> list str -> list (nat * nat) -> list nat -> nat -> Prop :=
| rule_nil i j : rule i j [] [] [] 0
| rule_one i j t ts links adds n :
    ~ In t manipulators -> rule (1 + i) (1 + j) ts links adds n ->
    rule i j (t :: ts) ((i, j) :: links) adds (1 + n)
| rule_split i j ts links adds n :
    rule (1 + i) (2 + j) ts links adds n ->
    rule i j (S_ "*^" :: ts) ((i, j) :: (i, 1 + j) :: links) adds (2 + n)
| rule_add i j ts links adds n :
    rule (1 + i) (2 + j) ts links adds n ->
    rule i j (S_ "*+" :: ts) ((i, j) :: links) ((1 + j) :: adds) (2 + n)
| rule_terminate i j ts links adds n :
    rule (1 + i) j ts links adds n ->
    rule i j (S_ "*-" :: ts) links adds n
| rule_exchange i j ts links adds n :
    rule (2 + i) (2 + j) ts links adds n ->
    rule i j (S_ "*x" :: S_ "*x" :: ts) ((1 + i, j) :: (i, 1 + j) :: links) adds (2 + n)
| rule_merge i j k ts links adds n :
    2 <= k -> hd_error ts <> Some (S_ "*v") ->
    rule (k + i) (1 + j) ts links adds n ->
    rule i j (repeat (S_ "*v") k ++ ts) (map (fun d => (d + i, j)) (seq 0 k) ++ links) adds (1 + n).

(** The number of spines after a line. *)
Definition spines_after (toks : list str) (n : nat) : Prop := exists links adds, rule 0 0 toks links adds n.

(** The same with a tail [rest] left unread; only used in proofs. *)
Inductive rulep (rest : list str) : nat -> nat -> list str -> list (nat * nat) -> list nat -> nat -> Prop :=
| rulep_nil i j : rulep rest i j rest [] [] 0
| rulep_one i j t ts links adds n :
    ~ In t manipulators -> rulep rest (1 + i) (1 + j) ts links adds n ->
    rulep rest i j (t :: ts) ((i, j) :: links) adds (1 + n)
| rulep_split i j ts links adds n :
    rulep rest (1 + i) (2 + j) ts links adds n ->
    rulep rest i j (S_ "*^" :: ts) ((i, j) :: (i, 1 + j) :: links) adds (2 + n)
| rulep_add i j ts links adds n :
    rulep rest (1 + i) (2 + j) ts links adds n ->
    rulep rest i j (S_ "*+" :: ts) ((i, j) :: links) ((1 + j) :: adds) (2 + n)
| rulep_terminate i j ts links adds n :
    rulep rest (1 + i) j ts links adds n ->
    rulep rest i j (S_ "*-" :: ts) links adds n
| rulep_exchange i j ts links adds n :
    rulep rest (2 + i) (2 + j) ts links adds n ->
    rulep rest i j (S_ "*x" :: S_ "*x" :: ts) ((1 + i, j) :: (i, 1 + j) :: links) adds (2 + n)
| rulep_merge i j k ts links adds n :
    2 <= k -> hd_error ts <> Some (S_ "*v") ->
    rulep rest (k + i) (1 + j) ts links adds n ->
    rulep rest i j (repeat (S_ "*v") k ++ ts) (map (fun d => (d + i, j)) (seq 0 k) ++ links) adds (1 + n).

Lemma rulep_rule i j ts links adds n : rulep [] i j ts links adds n -> rule i j ts links adds n.
Proof.
  induction 1; [apply rule_nil|apply rule_one|apply rule_split|apply rule_add|apply rule_terminate
               |apply rule_exchange|apply rule_merge]; assumption.
Qed.
Lemma rule_rulep i j ts links adds n : rule i j ts links adds n -> rulep [] i j ts links adds n.
Proof.
  induction 1; [apply rulep_nil|apply rulep_one|apply rulep_split|apply rulep_add|apply rulep_terminate
               |apply rulep_exchange|apply rulep_merge]; assumption.
Qed.

(** ** Token kinds *)
Lemma kind_spec t :
  match kind t with
  | KSplit => t = S_ "*^"
  | KMerge => t = S_ "*v"
  | KAdd => t = S_ "*+"
  | KExchange => t = S_ "*x"
  | KTerminate => t = S_ "*-"
  | KExclusive => ~ In t manipulators /\ isExclusiveInterpretation t = true
  | KPlain => ~ In t manipulators /\ isExclusiveInterpretation t = false
  end.
Proof.
  unfold kind.
  destruct (str_eqb t (S_ "*^")) eqn:E1; [apply str_eqb_eq; exact E1|].
  destruct (str_eqb t (S_ "*v")) eqn:E2; [apply str_eqb_eq; exact E2|].
  destruct (str_eqb t (S_ "*+")) eqn:E3; [apply str_eqb_eq; exact E3|].
  destruct (str_eqb t (S_ "*x")) eqn:E4; [apply str_eqb_eq; exact E4|].
  destruct (str_eqb t (S_ "*-")) eqn:E5; [apply str_eqb_eq; exact E5|].
  apply str_eqb_neq in E1, E2, E3, E4, E5.
  assert (~ In t manipulators).
  { unfold manipulators. cbn [In]. intros [H|[H|[H|[H|[H|[]]]]]]; congruence. }
  destruct (isExclusiveInterpretation t); auto.
Qed.

Lemma kind_one t : ~ In t manipulators -> kind t = KExclusive \/ kind t = KPlain.
Proof.
  intros H. pose proof (kind_spec t) as K.
  destruct (kind t); auto; exfalso; apply H; subst; unfold manipulators; cbn [In]; auto 8.
Qed.

Lemma isMerge_spec t : isMerge t = true <-> t = S_ "*v".
Proof.
  split; [|intros ->; reflexivity].
  unfold isMerge. pose proof (kind_spec t) as K. destruct (kind t); intros; try discriminate. exact K.
Qed.
Lemma isMerge_false t : t <> S_ "*v" -> isMerge t = false.
Proof. intros H. destruct (isMerge t) eqn:E; [apply isMerge_spec in E; contradiction|reflexivity]. Qed.
Lemma isExchange_spec t : isExchange t = true <-> t = S_ "*x".
Proof.
  split; [|intros ->; reflexivity].
  unfold isExchange. pose proof (kind_spec t) as K. destruct (kind t); intros; try discriminate. exact K.
Qed.

(** ** Decomposition of a line *)
Definition stuck (rest : list str) : Prop :=
  (exists r, rest = S_ "*v" :: r /\ hd_error r <> Some (S_ "*v")) \/
  (exists r, rest = S_ "*x" :: r /\ hd_error r <> Some (S_ "*x")).

Lemma run_of t (ts : list str) : exists k r, ts = repeat t k ++ r /\ hd_error r <> Some t.
Proof.
  induction ts as [|x ts (k & r & -> & H)].
  - exists 0, []. split; [reflexivity|discriminate].
  - destruct (str_eq_dec x t) as [->|E].
    + exists (S k), r. auto.
    + exists 0, (x :: repeat t k ++ r). split; [reflexivity|]. cbn [hd_error]. congruence.
Qed.

Lemma decompose ts : forall i j,
  (exists links adds n, rule i j ts links adds n) \/
  (exists rest links adds n, rulep rest i j ts links adds n /\ stuck rest).
Proof.
  assert (G : forall m ts, length ts <= m -> forall i j,
     exists rest links adds n, rulep rest i j ts links adds n /\ (rest = [] \/ stuck rest)).
  { induction m as [|m IH]; intros [|t l] L i j.
    1,3: exists [], [], [], 0; split; [constructor|auto].
    - cbn [length] in L. lia.
    - cbn [length] in L. pose proof (kind_spec t) as K.
      destruct (kind t) eqn:E.
      + subst. destruct (IH l ltac:(lia) (1 + i) (2 + j)) as (rest & lk & ad & n & R & D).
        exists rest. do 3 eexists. split; [apply rulep_split; exact R|exact D].
      + subst t. destruct (run_of (S_ "*v") l) as (k & r & -> & Hr).
        destruct k as [|k].
        * exists (S_ "*v" :: repeat (S_ "*v") 0 ++ r), [], [], 0. split; [constructor|]. right. left.
          exists r. auto.
        * rewrite app_length, repeat_length in L.
          destruct (IH r ltac:(lia) (2 + k + i) (1 + j)) as (rest & lk & ad & n & R & D).
          exists rest. do 3 eexists. split; [|exact D].
          change (S_ "*v" :: repeat (S_ "*v") (S k) ++ r) with (repeat (S_ "*v") (2 + k) ++ r).
          apply rulep_merge; [lia|exact Hr|exact R].
      + subst. destruct (IH l ltac:(lia) (1 + i) (2 + j)) as (rest & lk & ad & n & R & D).
        exists rest. do 3 eexists. split; [apply rulep_add; exact R|exact D].
      + subst. destruct (run_of (S_ "*x") l) as (k & r & -> & Hr).
        destruct k as [|k].
        * exists (S_ "*x" :: repeat (S_ "*x") 0 ++ r), [], [], 0. split; [constructor|]. right. right.
          exists r. auto.
        * rewrite app_length, repeat_length in L.
          destruct (IH (repeat (S_ "*x") k ++ r) ltac:(rewrite app_length, repeat_length; lia) (2 + i) (2 + j))
            as (rest & lk & ad & n & R & D).
          exists rest. do 3 eexists. split; [|exact D].
          apply rulep_exchange. exact R.
      + subst. destruct (IH l ltac:(lia) (1 + i) j) as (rest & lk & ad & n & R & D).
        exists rest. do 3 eexists. split; [apply rulep_terminate; exact R|exact D].
      + destruct (IH l ltac:(lia) (1 + i) (1 + j)) as (rest & lk & ad & n & R & D).
        exists rest. do 3 eexists. split; [apply rulep_one; [apply K|exact R]|exact D].
      + destruct (IH l ltac:(lia) (1 + i) (1 + j)) as (rest & lk & ad & n & R & D).
        exists rest. do 3 eexists. split; [apply rulep_one; [apply K|exact R]|exact D]. }
  intros i j. destruct (G (length ts) ts (le_n _) i j) as (rest & lk & ad & n & R & [->|D]).
  - left. do 3 eexists. apply rulep_rule. exact R.
  - right. eauto 10.
Qed.

(** ** adjustSpines *)
Lemma repeat_S {A} (x : A) k : repeat x (S k) = x :: repeat x k.
Proof. reflexivity. Qed.

Lemma adjust_run ln dt si ts : hd_error ts <> Some (S_ "*v") -> forall k i s mc,
  a_skip s = false -> a_merge s = mc -> 1 <= mc -> 2 <= mc + k -> (k = 0 -> ts <> []) ->
  adjust_loop ln dt si (repeat (S_ "*v") k ++ ts) i s =
    match getMergedSpineInfo si (i - mc) (mc + k - 1) with
    | None => None
    | Some lab => adjust_loop ln dt si ts (k + i)
                    (mkAdj false 0 (a_type s ++ [nth (i - mc) dt []]) (a_info s ++ [lab]) (a_tracks s))
    end.
Proof.
  intros Hts. induction k as [|k IH]; intros i s mc Hs Hm H1 H2 H0.
  - destruct ts as [|t ts]; [elim (H0 eq_refl); reflexivity|].
    assert (Et : isMerge t = false) by (apply isMerge_false; cbn [hd_error] in Hts; congruence).
    cbn [repeat app adjust_loop]. rewrite Hs, Hm, Et.
    rewrite andb_false_r. cbn [andb negb orb a_merge a_skip a_type a_info a_tracks].
    destruct (0 <? mc) eqn:E; [|apply Nat.ltb_ge in E; lia]. cbn [andb].
    destruct (mc =? 1) eqn:E1; [apply Nat.eqb_eq in E1; lia|].
    rewrite Nat.add_0_r, Nat.add_0_l.
    destruct (getMergedSpineInfo si (i - mc) (mc - 1)); [|reflexivity].
    change (0 <? 0) with false. cbn [andb]. reflexivity.
  - rewrite repeat_S. cbn [app adjust_loop]. rewrite Hs, Hm.
    change (isMerge (S_ "*v")) with true. rewrite andb_true_r.
    destruct (0 <? mc) eqn:E; [|apply Nat.ltb_ge in E; lia]. cbn [andb negb orb].
    destruct (repeat (S_ "*v") k ++ ts) as [|u us] eqn:Eu.
    + assert (k = 0) by (destruct k; [reflexivity|discriminate]). subst k.
      cbn [repeat app] in Eu. subst ts. cbn [negb andb].
      change (0 <? S mc) with true. cbn [andb].
      destruct mc as [|mc]; [lia|]. change (S (S mc) =? 1) with false. cbn [andb].
      replace (S i - S (S mc)) with (i - S mc) by lia.
      replace (S (S mc) - 1) with (S mc + 1 - 1) by lia.
      destruct (getMergedSpineInfo si (i - S mc) (S mc + 1 - 1)); reflexivity.
    + cbn [negb andb].
      rewrite IH with (mc := S mc); cbn [a_skip a_merge a_type a_info a_tracks]; try reflexivity; try lia.
      * replace (S i - S mc) with (i - mc) by lia. replace (S mc + k - 1) with (mc + S k - 1) by lia.
        replace (k + S i) with (S k + i) by lia. reflexivity.
      * intros ->. cbn [repeat app] in Eu. subst ts. discriminate.
Qed.

Lemma adjust_merge ln dt si ts k i s :
  hd_error ts <> Some (S_ "*v") -> 2 <= k -> a_skip s = false -> a_merge s = 0 ->
  adjust_loop ln dt si (repeat (S_ "*v") k ++ ts) i s =
    match getMergedSpineInfo si i (k - 1) with
    | None => None
    | Some lab => adjust_loop ln dt si ts (k + i)
                    (mkAdj false 0 (a_type s ++ [nth i dt []]) (a_info s ++ [lab]) (a_tracks s))
    end.
Proof.
  intros Hts Hk Hs Hm. destruct k as [|[|k]]; try lia.
  rewrite repeat_S. cbn [app adjust_loop]. rewrite Hs, Hm.
  change (0 <? 0) with false. cbn [andb].
  unfold adjust_token. change (kind (S_ "*v")) with KMerge. cbn [a_type a_info a_tracks].
  rewrite adjust_run with (mc := 1); cbn [a_skip a_merge a_type a_info a_tracks]; try reflexivity; try lia; auto.
  replace (S i - 1) with i by lia. replace (1 + S k - 1) with (S (S k) - 1) by lia.
  replace (S k + S i) with (S (S k) + i) by lia. reflexivity.
Qed.

(** A token that is not in a merge run. *)
Lemma adjust_cons ln dt si t ts i s :
  a_skip s = false -> a_merge s = 0 ->
  adjust_loop ln dt si (t :: ts) i s =
    match adjust_token ln dt si i t (hd_error ts) s with
    | None => None
    | Some s' => adjust_loop ln dt si ts (S i) s'
    end.
Proof.
  intros Hs Hm. destruct s as [sk mc ty inf tr]. cbn [a_skip a_merge] in *. subst.
  cbn [adjust_loop a_skip a_merge a_type a_info a_tracks].
  change (0 <? 0) with false. cbn [andb]. reflexivity.
Qed.

Lemma adjust_exchange ln dt si ts i s :
  a_skip s = false -> a_merge s = 0 ->
  adjust_loop ln dt si (S_ "*x" :: S_ "*x" :: ts) i s =
  adjust_loop ln dt si ts (2 + i)
    (mkAdj false 0 (a_type s ++ [nth (S i) dt []; nth i dt []])
       (a_info s ++ [nth (S i) si []; nth i si []]) (a_tracks s)).
Proof.
  intros Hs Hm. rewrite adjust_cons by assumption.
  unfold adjust_token. change (kind (S_ "*x")) with KExchange. cbn [hd_error].
  change (isExchange (S_ "*x")) with true. cbn iota. cbn [adjust_loop a_skip a_merge a_type a_info a_tracks].
  rewrite Hm. reflexivity.
Qed.

Ltac use_IH IH HA Hm i' s' A B C D E :=
  match type of HA with adjust_loop _ _ _ _ _ ?s0 = Some ?r0 =>
    destruct (IH s0 r0 eq_refl Hm HA) as (i' & s' & A & B & C & D & E) end.

Lemma adjust_rulep ln dt si rest i j ts links adds n :
  rulep rest i j ts links adds n -> forall s r,
  a_skip s = false -> a_merge s = 0 -> adjust_loop ln dt si ts i s = Some r ->
  exists i' s', a_skip s' = false /\ a_merge s' = 0 /\
    length (a_type s') = length (a_type s) + n /\
    length (a_info s') = length (a_info s) + n /\
    adjust_loop ln dt si rest i' s' = Some r.
Proof.
  induction 1 as [i j|i j t ts links adds n Ht R IH|i j ts links adds n R IH|i j ts links adds n R IH
    |i j ts links adds n R IH|i j ts links adds n R IH|i j k ts links adds n Hk Hh R IH]; intros s r Hs Hm HA.
  - exists i, s. repeat split; auto; lia.
  - rewrite adjust_cons in HA by assumption.
    unfold adjust_token in HA. destruct (kind_one t Ht) as [K|K]; rewrite K in HA; cbv beta iota zeta in HA.
    + destruct (last_start_pending (a_tracks s)); [|discriminate].
      use_IH IH HA Hm i' s' A B C D E.
      exists i', s'. repeat split; auto; [rewrite C|rewrite D]; cbn [a_type a_info]; rewrite app_length; cbn [length]; lia.
    + use_IH IH HA Hm i' s' A B C D E.
      exists i', s'. repeat split; auto; [rewrite C|rewrite D]; cbn [a_type a_info]; rewrite app_length; cbn [length]; lia.
  - rewrite adjust_cons in HA by assumption.
    unfold adjust_token in HA. change (kind (S_ "*^")) with KSplit in HA. cbv beta iota zeta in HA.
    use_IH IH HA Hm i' s' A B C D E.
    exists i', s'. repeat split; auto; [rewrite C|rewrite D]; cbn [a_type a_info]; rewrite app_length; cbn [length]; lia.
  - rewrite adjust_cons in HA by assumption.
    unfold adjust_token in HA. change (kind (S_ "*+")) with KAdd in HA. cbv beta iota zeta in HA.
    use_IH IH HA Hm i' s' A B C D E.
    exists i', s'. repeat split; auto; [rewrite C|rewrite D]; cbn [a_type a_info]; rewrite app_length; cbn [length]; lia.
  - rewrite adjust_cons in HA by assumption.
    unfold adjust_token in HA. change (kind (S_ "*-")) with KTerminate in HA. cbv beta iota zeta in HA.
    use_IH IH HA Hm i' s' A B C D E.
    exists i', s'. repeat split; auto.
  - rewrite adjust_exchange in HA by assumption.
    use_IH IH HA (eq_refl 0) i' s' A B C D E.
    exists i', s'. repeat split; auto; [rewrite C|rewrite D]; cbn [a_type a_info]; rewrite app_length; cbn [length]; lia.
  - rewrite adjust_merge in HA by assumption.
    destruct (getMergedSpineInfo si i (k - 1)) as [lab|]; [|discriminate].
    use_IH IH HA (eq_refl 0) i' s' A B C D E.
    exists i', s'. repeat split; auto; [rewrite C|rewrite D]; cbn [a_type a_info]; rewrite app_length; cbn [length]; lia.
Qed.

Lemma adjust_stuck ln dt si rest i s r :
  stuck rest -> a_skip s = false -> a_merge s = 0 -> adjust_loop ln dt si rest i s = Some r ->
  rest = [S_ "*v"] /\ a_type r = a_type s /\ a_info r = a_info s.
Proof.
  intros [(q & -> & Hq)|(q & -> & Hq)] Hs Hm HA; rewrite adjust_cons in HA by assumption.
  - unfold adjust_token in HA. change (kind (S_ "*v")) with KMerge in HA.
    destruct q as [|t q].
    + cbn [adjust_loop] in HA. injection HA as <-. auto.
    + exfalso. assert (Et : isMerge t = false) by (apply isMerge_false; cbn [hd_error] in Hq; congruence).
      cbn [adjust_loop a_skip a_merge] in HA. rewrite Et, andb_false_r in HA.
      change (0 <? 1) with true in HA. cbn [andb negb orb] in HA. change (1 =? 1) with true in HA. discriminate.
  - unfold adjust_token in HA. change (kind (S_ "*x")) with KExchange in HA.
    destruct q as [|t q]; [discriminate|]. cbn [hd_error] in HA, Hq.
    destruct (isExchange t) eqn:Et; [|discriminate]. apply isExchange_spec in Et. congruence.
Qed.

(** What a successful call of adjustSpines says about its line. *)
Lemma adjust_count ln toks st st' :
  adjustSpines ln toks st = Some st' ->
  length (s_type st') = length (s_info st') /\
  (spines_after toks (length (s_type st')) \/
   exists links adds, rulep [S_ "*v"] 0 0 toks links adds (length (s_type st'))).
Proof.
  unfold adjustSpines. destruct (adjust_loop _ _ _ _ _ _) as [r|] eqn:HA; [|discriminate].
  intros [= <-]. cbn [s_type s_info].
  destruct (decompose toks 0 0) as [(lk & ad & n & R)|(rest & lk & ad & n & R & D)].
  - pose proof (rule_rulep _ _ _ _ _ _ R) as R'.
    destruct (adjust_rulep ln _ _ _ _ _ _ _ _ _ R' (mkAdj false 0 [] [] (s_tracks st)) r eq_refl eq_refl HA) as (i' & s' & A & B & C & E & F).
    cbn [adjust_loop] in F. injection F as <-. cbn [a_type a_info length] in C, E.
    split; [lia|]. left. exists lk, ad. rewrite C. exact R.
  - destruct (adjust_rulep ln _ _ _ _ _ _ _ _ _ R (mkAdj false 0 [] [] (s_tracks st)) r eq_refl eq_refl HA) as (i' & s' & A & B & C & E & F).
    destruct (adjust_stuck _ _ _ _ _ _ _ D A B F) as (-> & T1 & T2).
    rewrite T1, T2. cbn [a_type a_info length] in C, E. split; [lia|]. right. exists lk, ad. rewrite C. exact R.
Qed.

(** ** stitchLinesTogether *)
Lemma has_true next j : j < length next -> has next j = true.
Proof. unfold has. intros. apply Nat.ltb_lt. assumption. Qed.

Lemma stitch_run next ts j : hd_error ts <> Some (S_ "*v") -> j < length next -> forall k i mc lk,
  1 <= mc -> 2 <= mc + k -> (k = 0 -> ts <> []) ->
  stitch_loop next (repeat (S_ "*v") k ++ ts) i (mkSt j false mc lk) =
  stitch_loop next ts (k + i) (mkSt (S j) false 0 (lk ++ map (fun d => (d + i, j)) (seq 0 k))).
Proof.
  intros Hts Hj. induction k as [|k IH]; intros i mc lk H1 H2 H0.
  - destruct ts as [|t ts]; [elim (H0 eq_refl); reflexivity|].
    assert (Et : isMerge t = false) by (apply isMerge_false; cbn [hd_error] in Hts; congruence).
    cbn [repeat app stitch_loop st_skip st_merge st_idx st_links]. rewrite Et.
    destruct mc as [|[|mc]]; try lia.
    change (S (S mc) =? 0) with false. change (S (S mc) =? 1) with false. change (0 =? 0) with true.
    cbn [negb andb orb seq map st_skip st_merge st_idx st_links]. 
    change (S (S mc) =? 0) with false. change (S (S mc) =? 1) with false. 
    cbn [negb andb]. rewrite app_nil_r. reflexivity.
  - rewrite repeat_S. cbn [app stitch_loop st_skip st_merge st_idx st_links].
    change (isMerge (S_ "*v")) with true. destruct mc as [|mc]; [lia|].
    change (S mc =? 0) with false. cbn [andb negb orb].
    cbn [st_skip st_merge st_idx st_links].
    change (S (S mc) =? 0) with false. change (S (S mc) =? 1) with false.
    cbn [andb negb orb]. rewrite has_true by assumption. cbn [link_if].
    assert (G : lk ++ map (fun d => (d + i, j)) (seq 0 (S k)) =
                (lk ++ [(i, j)]) ++ map (fun d => (d + S i, j)) (seq 0 k)).
    { cbn [seq map]. rewrite <- app_assoc. cbn [app]. do 2 f_equal.
      rewrite <- seq_shift, map_map. apply map_ext. intros. f_equal. lia. }
    destruct (repeat (S_ "*v") k ++ ts) as [|u us] eqn:Eu.
    + assert (k = 0) by (destruct k; [reflexivity|discriminate]). subst k.
      cbn [repeat app] in Eu. subst ts. cbn [negb andb stitch_loop]. rewrite G. cbn [seq map]. rewrite app_nil_r.
      reflexivity.
    + cbn [negb andb].
      rewrite IH; try lia.
      * rewrite G. replace (k + S i) with (S k + i) by lia. reflexivity.
      * intros ->. cbn [repeat app] in Eu. subst ts. discriminate.
Qed.

Lemma stitch_cons next t ts i j lk :
  stitch_loop next (t :: ts) i (mkSt j false 0 lk) =
    match stitch_token next i t (hd_error ts) (mkSt j false 0 lk) with
    | Fine s3 => stitch_loop next ts (S i) s3
    | ParseError => ParseError
    | Raised => Raised
    end.
Proof. reflexivity. Qed.

Lemma stitch_merge next ts j k i lk : hd_error ts <> Some (S_ "*v") -> j < length next -> 2 <= k ->
  stitch_loop next (repeat (S_ "*v") k ++ ts) i (mkSt j false 0 lk) =
  stitch_loop next ts (k + i) (mkSt (S j) false 0 (lk ++ map (fun d => (d + i, j)) (seq 0 k))).
Proof.
  intros Hts Hj Hk. destruct k as [|[|k]]; try lia.
  rewrite repeat_S. cbn [app]. rewrite stitch_cons. unfold stitch_token.
  change (kind (S_ "*v")) with KMerge. cbn [st_idx st_links]. rewrite has_true by assumption.
  rewrite stitch_run by (try assumption; try lia; discriminate).
  replace (S k + S i) with (S (S k) + i) by lia. do 2 f_equal.
  rewrite <- app_assoc. f_equal. cbn [app]. 
  change (seq 0 (S (S k))) with (0 :: seq 1 (S k)). rewrite <- (seq_shift (S k) 0).
  rewrite map_cons, map_map. f_equal. apply map_ext. intros. f_equal. lia.
Qed.

(** Where a new spine was announced, the next line has an exclusive
    interpretation. *)
Definition starts_spine (next : list str) (p : nat) : Prop :=
  exists e, nth_error next p = Some e /\ isExclusiveInterpretation e = true.

Lemma starts_spine_dec next p : starts_spine next p \/ ~ starts_spine next p.
Proof.
  unfold starts_spine. destruct (nth_error next p) as [e|]; [destruct (isExclusiveInterpretation e) eqn:E|].
  - left. eauto.
  - right. intros (x & [= <-] & X). congruence.
  - right. intros (x & X & _). discriminate.
Qed.

Lemma stitch_rulep next rest i j ts links adds n :
  rulep rest i j ts links adds n -> j + n <= length next -> forall lk,
  (exists i', stitch_loop next ts i (mkSt j false 0 lk) =
              stitch_loop next rest i' (mkSt (j + n) false 0 (lk ++ links))) \/
  (stitch_loop next ts i (mkSt j false 0 lk) = ParseError /\ exists p, In p adds /\ ~ starts_spine next p).
Proof.
  induction 1 as [i j|i j t ts links adds n Ht R IH|i j ts links adds n R IH|i j ts links adds n R IH
    |i j ts links adds n R IH|i j ts links adds n R IH|i j k ts links adds n Hk Hh R IH]; intros HL lk.
  - left. exists i. rewrite app_nil_r, Nat.add_0_r. reflexivity.
  - rewrite stitch_cons. unfold stitch_token. cbn [st_idx st_links st_merge st_skip].
    replace (match kind t with KSplit => _ | KMerge => _ | KAdd => _ | KExchange => _ | KTerminate => _ | _ => _ end)
      with (Fine (mkSt (S j) false 0 (lk ++ [(i, j)]))).
    2:{ destruct (kind_one t Ht) as [K|K]; rewrite K, has_true by lia; reflexivity. }
    specialize (IH ltac:(lia) (lk ++ [(i, j)])). rewrite <- app_assoc in IH.
    replace (1 + j + n) with (j + (1 + n)) in IH by lia. exact IH.
  - rewrite stitch_cons. unfold stitch_token. cbn [st_idx st_links st_merge st_skip].
    change (kind (S_ "*^")) with KSplit. cbv iota. rewrite has_true by lia. cbv iota beta.
    rewrite has_true by lia. cbv iota beta.
    specialize (IH ltac:(lia) ((lk ++ [(i, j)]) ++ [(i, S j)])). rewrite <- !app_assoc in IH.
    replace (2 + j + n) with (j + (2 + n)) in IH by lia. rewrite <- app_assoc. exact IH.
  - rewrite stitch_cons. unfold stitch_token. cbn [st_idx st_links st_merge st_skip].
    change (kind (S_ "*+")) with KAdd. cbv iota.
    destruct (starts_spine_dec next (S j)) as [(e & He & Ee)|N].
    + rewrite He, Ee, has_true by lia. cbv iota.
      specialize (IH ltac:(lia) (lk ++ [(i, j)])). rewrite <- app_assoc in IH.
      replace (2 + j + n) with (j + (2 + n)) in IH by lia.
      destruct IH as [IH|(IH & p & Hp & Hq)]; [left; exact IH|].
      right. split; [exact IH|]. exists p. split; [right; exact Hp|exact Hq].
    + right. split; [|exists (S j); split; [left; reflexivity|exact N]].
      destruct (nth_error next (S j)) as [e|] eqn:En; [|reflexivity].
      destruct (isExclusiveInterpretation e) eqn:Ee; [|reflexivity].
      elim N. exists e. auto.
  - rewrite stitch_cons. unfold stitch_token. cbn [st_idx st_links st_merge st_skip].
    change (kind (S_ "*-")) with KTerminate. cbv iota. apply IH. lia.
  - rewrite stitch_cons. unfold stitch_token. cbn [st_idx st_links st_merge st_skip hd_error].
    change (kind (S_ "*x")) with KExchange. change (isExchange (S_ "*x")) with true. cbv iota.
    rewrite !has_true by lia. cbn [link_if].
    cbn [stitch_loop st_skip st_idx st_merge st_links].
    specialize (IH ltac:(lia) ((lk ++ [(S i, j)]) ++ [(i, S j)])). rewrite <- !app_assoc in IH.
    replace (2 + j + n) with (j + (2 + n)) in IH by lia. rewrite <- app_assoc. exact IH.
  - rewrite stitch_merge by (try assumption; lia).
    specialize (IH ltac:(lia) (lk ++ map (fun d => (d + i, j)) (seq 0 k))). rewrite <- app_assoc in IH.
    replace (1 + j + n) with (j + (1 + n)) in IH by lia. exact IH.
Qed.

(** A line ending in a single merge: the link pass raises. *)
Lemma stitch_lone next toks links adds n :
  rulep [S_ "*v"] 0 0 toks links adds n -> length next = n ->
  stitch_loop next toks 0 (mkSt 0 false 0 []) = Raised \/
  stitch_loop next toks 0 (mkSt 0 false 0 []) = ParseError.
Proof.
  intros R L. destruct (stitch_rulep next _ _ _ _ _ _ _ R ltac:(lia) []) as [(i' & E)|(E & _)]; [|auto].
  left. rewrite E. rewrite stitch_cons. unfold stitch_token. change (kind (S_ "*v")) with KMerge. cbv iota.
  cbn [st_idx]. unfold has. destruct (0 + n <? length next) eqn:X; [apply Nat.ltb_lt in X; lia|reflexivity].
Qed.

Lemma stitch_rule next toks links adds :
  rule 0 0 toks links adds (length next) ->
  stitch_loop next toks 0 (mkSt 0 false 0 []) = Fine (mkSt (length next) false 0 links) \/
  (stitch_loop next toks 0 (mkSt 0 false 0 []) = ParseError /\ exists p, In p adds /\ ~ starts_spine next p).
Proof.
  intros R. apply rule_rulep in R.
  destruct (stitch_rulep next _ _ _ _ _ _ _ R ltac:(lia) []) as [(i' & E)|E]; [left|right; exact E].
  rewrite E. reflexivity.
Qed.

(** The rules are deterministic. *)
Lemma rule_det toks l1 a1 n1 l2 a2 n2 :
  rule 0 0 toks l1 a1 n1 -> rule 0 0 toks l2 a2 n2 -> l1 = l2 /\ n1 = n2.
Proof.
  intros R1 R2. apply rule_rulep in R1, R2.
  set (next := repeat (S_ "**") (2 + n1 + n2)).
  assert (L : length next = 2 + n1 + n2) by apply repeat_length.
  assert (G : forall i j ts rest lk ad n, rulep rest i j ts lk ad n -> Forall (fun p => p < j + n) ad).
  { induction 1; try constructor; try lia; eapply Forall_impl; try eassumption; cbn beta; intros; lia. }
  assert (T : forall p, p < 2 + n1 + n2 -> starts_spine next p).
  { intros p Hp. exists (S_ "**"). split; [|reflexivity]. unfold next.
    rewrite nth_error_repeat by lia. reflexivity. }
  destruct (stitch_rulep next _ _ _ _ _ _ _ R1 ltac:(lia) []) as [(i' & E1)|(_ & p & Hp & Hn)].
  2:{ elim Hn. apply T. pose proof (proj1 (Forall_forall _ _) (G _ _ _ _ _ _ _ R1) p Hp). cbn beta in *. lia. }
  destruct (stitch_rulep next _ _ _ _ _ _ _ R2 ltac:(lia) []) as [(i'' & E2)|(_ & p & Hp & Hn)].
  2:{ elim Hn. apply T. pose proof (proj1 (Forall_forall _ _) (G _ _ _ _ _ _ _ R2) p Hp). cbn beta in *. lia. }
  rewrite E1 in E2. cbn [stitch_loop] in E2. injection E2 as E3 E4. cbn [app] in E4. split; [exact E4|lia].
Qed.

Lemma spines_after_det toks n m : spines_after toks n -> spines_after toks m -> n = m.
Proof. intros (l1 & a1 & R1) (l2 & a2 & R2). apply (rule_det _ _ _ _ _ _ _ R1 R2). Qed.

Lemma rule_plain toks : (forall t, In t toks -> ~ In t manipulators) -> forall i j,
  rule i j toks (map (fun d => (d + i, d + j)) (seq 0 (length toks))) [] (length toks).
Proof.
  induction toks as [|t ts IH]; intros H i j; [constructor|].
  cbn [length seq map].
  replace (map (fun d => (d + i, d + j)) (seq 1 (length ts)))
    with (map (fun d => (d + (1 + i), d + (1 + j))) (seq 0 (length ts))).
  - apply rule_one; [apply H; left; reflexivity|]. apply IH. intros u Hu. apply H. right. exact Hu.
  - rewrite <- seq_shift, map_map. apply map_ext. intros. f_equal; lia.
Qed.

Lemma not_manip_token t : isManipulatorToken t = false -> ~ In t manipulators.
Proof.
  unfold isManipulatorToken. pose proof (kind_spec t) as K. intros H.
  destruct (kind t); try discriminate. apply K.
Qed.
Lemma exclusive_not_manip t : isExclusiveInterpretation t = true -> ~ In t manipulators.
Proof.
  intros H I. unfold manipulators in I. cbn [In] in I.
  destruct I as [<-|[<-|[<-|[<-|[<-|[]]]]]]; discriminate H.
Qed.

Lemma no_manip_line toks : existsb isManipulatorToken toks = false -> forall t, In t toks -> ~ In t manipulators.
Proof.
  intros H t Ht. apply not_manip_token.
  destruct (isManipulatorToken t) eqn:E; [|reflexivity].
  assert (existsb isManipulatorToken toks = true) by (apply existsb_exists; eauto). congruence.
Qed.

Lemma spines_after_plain toks : (forall t, In t toks -> ~ In t manipulators) -> spines_after toks (length toks).
Proof. intros H. do 2 eexists. apply rule_plain. exact H. Qed.

(** ** Files *)
Definition spined (lines : list str) : list str := filter hasSpines lines.
Definition consecutive {A} (a b : A) (l : list A) : Prop := exists pre post, l = pre ++ a :: b :: post.

Lemma spined_cons_global l ls : isGlobalLine l = true -> spined (l :: ls) = spined ls.
Proof. intros H. unfold spined. cbn [filter]. unfold hasSpines. rewrite H. reflexivity. Qed.
Lemma spined_cons l ls : isGlobalLine l = false -> spined (l :: ls) = l :: spined ls.
Proof. intros H. unfold spined. cbn [filter]. unfold hasSpines. rewrite H. reflexivity. Qed.

Lemma consecutive_cons {A} (a b x : A) l :
  consecutive a b (x :: l) -> (a = x /\ hd_error l = Some b) \/ consecutive a b l.
Proof.
  intros ([|y pre] & post & E); cbn [app] in E; injection E as E1 E2; subst; [left; auto|].
  right. exists pre, post. reflexivity.
Qed.

Lemma spine_lines_head ls : forall ln st r q,
  spine_lines ln ls st = Some r -> hd_error (spined ls) = Some q -> length (s_type st) = length (tokens q).
Proof.
  induction ls as [|l ls IH]; intros ln st r q H Hq; [discriminate|].
  cbn [spine_lines] in H. destruct (isGlobalLine l) eqn:E.
  - rewrite spined_cons_global in Hq by assumption. eapply IH; eassumption.
  - rewrite spined_cons in Hq by assumption. cbn [hd_error] in Hq. injection Hq as <-.
    destruct (spine_line ln (tokens l) st) as [st'|] eqn:Es; [|discriminate].
    unfold spine_line in Es. destruct (length (s_type st) =? length (tokens l)) eqn:X; [|discriminate].
    apply Nat.eqb_eq in X. exact X.
Qed.

Lemma spine_lines_consecutive ls : forall ln st r p q,
  spine_lines ln ls st = Some r -> consecutive p q (spined ls) ->
  exists ln' st1 st2, spine_line ln' (tokens p) st1 = Some st2 /\ length (s_type st2) = length (tokens q).
Proof.
  induction ls as [|l ls IH]; intros ln st r p q H C.
  - destruct C as ([|] & ? & C); discriminate.
  - cbn [spine_lines] in H. destruct (isGlobalLine l) eqn:E.
    + rewrite spined_cons_global in C by assumption. eapply IH; eassumption.
    + rewrite spined_cons in C by assumption.
      destruct (spine_line ln (tokens l) st) as [st'|] eqn:Es; [|discriminate].
      destruct (spine_lines (S ln) ls st') as [[infos fin]|] eqn:Er; [|discriminate].
      destruct (consecutive_cons _ _ _ _ C) as [(-> & Hq)|C'].
      * exists ln, st, st'. split; [exact Es|]. eapply spine_lines_head; eassumption.
      * eapply IH; eassumption.
Qed.

Lemma analyzeLinks_consecutive ls : forall ln prev g g' p q,
  analyzeLinks_from ln prev ls g = Fine g' ->
  consecutive p q (match prev with Some (_, l) => [l] | None => [] end ++ spined ls) ->
  exists links, stitchLinesTogether p q = StitchOk links.
Proof.
  induction ls as [|l ls IH]; intros ln prev g g' p q H C.
  - destruct prev as [[pl pr]|]; destruct C as ([|? [|]] & ? & C); discriminate.
  - cbn [analyzeLinks_from] in H. destruct (isGlobalLine l) eqn:E.
    + rewrite spined_cons_global in C by assumption. eapply IH; eassumption.
    + rewrite spined_cons in C by assumption. destruct prev as [[pl pr]|].
      * destruct (stitchLinesTogether pr l) as [links| |] eqn:Es; try discriminate.
        cbn [app] in C. destruct (consecutive_cons _ _ _ _ C) as [(-> & Hq)|C'].
        -- cbn [hd_error] in Hq. injection Hq as <-. eauto.
        -- eapply IH with (prev := Some (ln, l)); eassumption.
      * eapply IH with (prev := Some (ln, l)); eassumption.
Qed.

Lemma analyzeSpines_consecutive ls : forall ln r p q,
  analyzeSpines_from ln ls = Some r -> consecutive p q (spined ls) ->
  (hd_error (spined ls) = Some p /\ length (tokens p) = length (tokens q)) \/
  exists ln' st1 st2, spine_line ln' (tokens p) st1 = Some st2 /\ length (s_type st2) = length (tokens q).
Proof.
  induction ls as [|l ls IH]; intros ln r p q H C; [discriminate|].
  cbn [analyzeSpines_from] in H. destruct (isGlobalLine l) eqn:E.
  - rewrite spined_cons_global in * by assumption. eapply IH; eassumption.
  - rewrite spined_cons in * by assumption. destruct (isExclusiveLine l); [|discriminate].
    destruct (spine_lines (S ln) ls (init_state ln (tokens l))) as [[infos fin]|] eqn:Er; [|discriminate].
    destruct (consecutive_cons _ _ _ _ C) as [(-> & Hq)|C'].
    + left. split; [reflexivity|]. pose proof (spine_lines_head _ _ _ _ _ Er Hq) as L. exact L.
    + right. eapply spine_lines_consecutive; eassumption.
Qed.

(** The opening line consists of exclusive interpretations only. *)
Definition opens_cleanly (lines : list str) : Prop :=
  forall l t, hd_error (spined lines) = Some l -> In t (tokens l) -> isExclusiveInterpretation t = true.

(** Manipulators only occur on interpretation lines (lines that start with an
    asterisk). *)
Definition manipulators_on_interpretation_lines (lines : list str) : Prop :=
  forall l t, In l (spined lines) -> In t (tokens l) -> In t manipulators -> isInterpretationLine l = true.

Lemma manip_line_has toks :
  existsb isManipulatorToken toks = true -> (exists t, In t toks /\ In t manipulators) \/
  (exists t, In t toks /\ isExclusiveInterpretation t = true).
Proof.
  intros H. apply existsb_exists in H. destruct H as (t & Ht & M).
  unfold isManipulatorToken in M. pose proof (kind_spec t) as K. unfold manipulators.
  destruct (kind t); try discriminate; subst; try (left; exists t; split; [exact Ht|cbn [In]; auto 8]; fail).
  - left. exists (S_ "*^"). cbn [In]. auto 8.
  - left. exists (S_ "*v"). cbn [In]. auto 8.
  - left. exists (S_ "*+"). cbn [In]. auto 8.
  - left. exists (S_ "*x"). cbn [In]. auto 8.
  - left. exists (S_ "*-"). cbn [In]. auto 8.
  - right. exists t. split; [exact Ht|apply K].
Qed.

Lemma rulep_tail_in rest i j ts lk ad n : rulep rest i j ts lk ad n -> forall t, In t rest -> In t ts.
Proof.
  induction 1; intros u Hu; auto; try (right; auto; fail).
  - right. right. auto.
  - apply in_or_app. right. auto.
Qed.

Lemma consecutive_in {A} (a b : A) l : consecutive a b l -> In a l.
Proof. intros (pre & post & ->). apply in_or_app. right. left. reflexivity. Qed.

Theorem accepted_counts lines p q :
  accepted lines -> opens_cleanly lines -> manipulators_on_interpretation_lines lines ->
  consecutive p q (spined lines) ->
  spines_after (tokens p) (length (tokens q)).
Proof.
  intros (infos & fin & g & HS & HL & _) Ho Hm C.
  destruct (analyzeSpines_consecutive _ _ _ _ _ HS C) as [(Hh & HE)|(ln' & st1 & st2 & HA & HE)].
  - rewrite <- HE. apply spines_after_plain. intros t Ht. apply exclusive_not_manip. eapply Ho; eassumption.
  - unfold spine_line in HA. destruct (length (s_type st1) =? length (tokens p)) eqn:X; [|discriminate].
    apply Nat.eqb_eq in X. cbn [negb] in HA.
    destruct (existsb isManipulatorToken (tokens p)) eqn:M.
    + destruct (adjust_count _ _ _ _ HA) as (_ & [S1|(lk & ad & R)]); [rewrite <- HE; exact S1|].
      exfalso.
      destruct (analyzeLinks_consecutive _ _ None _ _ p q HL C) as (links & ST).
      unfold stitchLinesTogether in ST.
      assert (I : isInterpretationLine p = true).
      { eapply Hm; [eapply consecutive_in; exact C| |].
        - eapply rulep_tail_in; [exact R|left; reflexivity].
        - unfold manipulators. cbn [In]. auto. }
      rewrite I in ST. cbn [negb andb] in ST.
      destruct (stitch_lone (tokens q) _ _ _ _ R (eq_sym HE)) as [E|E]; rewrite E in ST; discriminate.
    + injection HA as <-. rewrite <- HE, X. apply spines_after_plain. apply no_manip_line. exact M.
Qed.

(** The links of an accepted file are the ones the rules give. *)
Theorem accepted_links lines p q :
  accepted lines -> opens_cleanly lines -> manipulators_on_interpretation_lines lines ->
  consecutive p q (spined lines) ->
  exists links adds, rule 0 0 (tokens p) links adds (length (tokens q)) /\
    stitchLinesTogether p q = StitchOk links.
Proof.
  intros A Ho Hm C. destruct (accepted_counts _ _ _ A Ho Hm C) as (links & adds & R).
  exists links, adds. split; [exact R|].
  destruct A as (infos & fin & g & HS & HL & _).
  destruct (analyzeLinks_consecutive _ _ None _ _ p q HL C) as (links' & ST).
  unfold stitchLinesTogether in *.
  destruct (isInterpretationLine p) eqn:I; cbn [negb andb] in *.
  - destruct (stitch_rule _ _ _ _ R) as [E|(E & _)]; rewrite E in *; [|discriminate].
    cbn [st_idx st_links] in *. rewrite Nat.eqb_refl in *. reflexivity.
  - destruct (isInterpretationLine q) eqn:J; cbn [negb andb] in *.
    + destruct (stitch_rule _ _ _ _ R) as [E|(E & _)]; rewrite E in *; [|discriminate].
      cbn [st_idx st_links] in *. rewrite Nat.eqb_refl in *. reflexivity.
    + destruct (length (tokens p) =? length (tokens q)) eqn:X; [|discriminate]. cbn [negb] in *.
      injection ST as <-. f_equal.
      assert (P : rule 0 0 (tokens p) (map (fun d => (d + 0, d + 0)) (seq 0 (length (tokens p)))) []
                    (length (tokens p))).
      { apply rule_plain. intros t Ht Hx.
        assert (isInterpretationLine p = true); [|congruence].
        eapply Hm; [eapply consecutive_in; exact C|exact Ht|exact Hx]. }
      destruct (rule_det _ _ _ _ _ _ _ P R) as (<- & _).
      apply map_ext. intros. rewrite Nat.add_0_r. reflexivity.
Qed.

(** ** When the link pass cannot fail *)
Definition ends_in_single_merge (toks : list str) : Prop :=
  exists pre, toks = pre ++ [S_ "*v"] /\ last pre [] <> S_ "*v".

Lemma rulep_suffix rest i j ts lk ad n : rulep rest i j ts lk ad n -> exists pre, ts = pre ++ rest.
Proof.
  induction 1 as [|i j t ts ? ? ? ? ? (pre & ->)|i j ts ? ? ? ? (pre & ->)|i j ts ? ? ? ? (pre & ->)
    |i j ts ? ? ? ? (pre & ->)|i j ts ? ? ? ? (pre & ->)|i j k ts ? ? ? ? ? ? (pre & ->)].
  - exists []. reflexivity.
  - exists (t :: pre). reflexivity.
  - exists (S_ "*^" :: pre). reflexivity.
  - exists (S_ "*+" :: pre). reflexivity.
  - exists (S_ "*-" :: pre). reflexivity.
  - exists (S_ "*x" :: S_ "*x" :: pre). reflexivity.
  - exists (repeat (S_ "*v") k ++ pre). apply app_assoc.
Qed.

Lemma last_app_cons {A} (d : A) l x l' : last (l ++ x :: l') d = last (x :: l') d.
Proof.
  induction l as [|y l IH]; [reflexivity|]. cbn [app last] in *.
  destruct (l ++ x :: l') eqn:E; [destruct l; discriminate|exact IH].
Qed.

Lemma rulep_lone i j ts lk ad n : rulep [S_ "*v"] i j ts lk ad n -> ends_in_single_merge ts.
Proof.
  induction 1 as [i j|i j t ts ? ? ? Ht R (pre & -> & L)|i j ts ? ? ? R (pre & -> & L)|i j ts ? ? ? R (pre & -> & L)
    |i j ts ? ? ? R (pre & -> & L)|i j ts ? ? ? R (pre & -> & L)|i j k ts ? ? ? Hk Hh R (pre & -> & L)].
  - exists []. split; [reflexivity|discriminate].
  - exists (t :: pre). split; [reflexivity|]. destruct pre as [|x pre].
    + cbn [last]. intros ->. apply Ht. unfold manipulators. cbn [In]. auto.
    + change (last (t :: x :: pre) []) with (last (x :: pre) []). exact L.
  - exists (S_ "*^" :: pre). split; [reflexivity|]. destruct pre as [|x pre]; [discriminate|exact L].
  - exists (S_ "*+" :: pre). split; [reflexivity|]. destruct pre as [|x pre]; [discriminate|exact L].
  - exists (S_ "*-" :: pre). split; [reflexivity|]. destruct pre as [|x pre]; [discriminate|exact L].
  - exists (S_ "*x" :: S_ "*x" :: pre). split; [reflexivity|]. destruct pre as [|x pre]; [discriminate|exact L].
  - exists (repeat (S_ "*v") k ++ pre). split; [apply app_assoc|].
    destruct pre as [|x pre]; [elim Hh; reflexivity|]. rewrite last_app_cons. exact L.
Qed.

(** Every [*+] is followed, on the next spined line, by an exclusive
    interpretation in the new spine. *)
Definition added_spines_start (lines : list str) : Prop :=
  forall p q links adds n a, consecutive p q (spined lines) -> rule 0 0 (tokens p) links adds n -> In a adds ->
    starts_spine (tokens q) a.

Lemma spines_then_links lines ls : forall ln prev g r,
  (forall p q, consecutive p q (match prev with Some (_, l) => [l] | None => [] end ++ spined ls) ->
    exists links, stitchLinesTogether p q = StitchOk links) ->
  lines = ls -> r = analyzeLinks_from ln prev ls g -> exists g', r = Fine g'.
Proof.
  intros ln prev g r H _ ->. revert ln prev g H.
  induction ls as [|l ls IH]; intros ln prev g H; [eexists; reflexivity|].
  cbn [analyzeLinks_from]. destruct (isGlobalLine l) eqn:E.
  - rewrite spined_cons_global in H by assumption. apply IH. exact H.
  - rewrite spined_cons in H by assumption. destruct prev as [[pl pr]|].
    + destruct (H pr l) as (links & ->); [exists [], (spined ls); reflexivity|].
      apply IH. intros p q (pre & post & C). apply H. exists (pr :: pre), post. cbn [app] in *. rewrite C. reflexivity.
    + apply IH. exact H.
Qed.

Theorem spines_imply_links lines r :
  analyzeSpines lines = Some r -> opens_cleanly lines -> manipulators_on_interpretation_lines lines ->
  added_spines_start lines ->
  (forall p q, consecutive p q (spined lines) -> ~ ends_in_single_merge (tokens p)) ->
  exists g, analyzeLinks lines = Fine g.
Proof.
  intros HS Ho Hm Ha Hl. eapply spines_then_links; [|reflexivity|reflexivity].
  intros p q C. cbn [app] in C.
  assert (S1 : spines_after (tokens p) (length (tokens q))).
  { destruct (analyzeSpines_consecutive _ _ _ _ _ HS C) as [(Hh & HE)|(ln' & st1 & st2 & HA & HE)].
    - rewrite <- HE. apply spines_after_plain. intros t Ht. apply exclusive_not_manip. eapply Ho; eassumption.
    - unfold spine_line in HA. destruct (length (s_type st1) =? length (tokens p)) eqn:X; [|discriminate].
      apply Nat.eqb_eq in X. cbn [negb] in HA.
      destruct (existsb isManipulatorToken (tokens p)) eqn:M.
      + destruct (adjust_count _ _ _ _ HA) as (_ & [S1|(lk & ad & R)]); [rewrite <- HE; exact S1|].
        elim (Hl _ _ C). eapply rulep_lone. exact R.
      + injection HA as <-. rewrite <- HE, X. apply spines_after_plain. apply no_manip_line. exact M. }
  destruct S1 as (links & adds & R). unfold stitchLinesTogether.
  assert (K : exists lk, match stitch_loop (tokens q) (tokens p) 0 (mkSt 0 false 0 []) with
    | Fine s => if st_idx s =? length (tokens q) then StitchOk (st_links s) else StitchError
    | ParseError => StitchError
    | Raised => StitchRaise
    end = StitchOk lk).
  { destruct (stitch_rule _ _ _ _ R) as [E|(E & a & Ia & Na)].
    - rewrite E. cbn [st_idx st_links]. rewrite Nat.eqb_refl. eauto.
    - elim Na. eapply Ha; eassumption. }
  destruct (isInterpretationLine p) eqn:I; cbn [negb andb]; [exact K|].
  destruct (isInterpretationLine q) eqn:J; cbn [negb andb]; [exact K|].
  assert (P : rule 0 0 (tokens p) (map (fun d => (d + 0, d + 0)) (seq 0 (length (tokens p)))) []
                (length (tokens p))).
  { apply rule_plain. intros t Ht Hx.
    assert (isInterpretationLine p = true); [|congruence].
    eapply Hm; [eapply consecutive_in; exact C|exact Ht|exact Hx]. }
  destruct (rule_det _ _ _ _ _ _ _ P R) as (_ & E). rewrite E, Nat.eqb_refl. cbn [negb]. eauto.
Qed.

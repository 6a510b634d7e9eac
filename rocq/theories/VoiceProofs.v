(** Proofs about the distribution of tokens to layers. *)
From Verif Require Import PyStr PyStrProofs LayoutModel TextModel SpineModel ImportModel RecipModel DurationModel DurationProofs VoiceModel.
From Coq Require Import QArith Lia Lqa.
Local Close Scope Q_scope.

(** ** Vocabulary *)

(** The tokens of a layer, without the rests that were put in. *)
Definition reals (l : list item) : list itok :=
  flat_map (fun x => match x with Real t => [t] | Fake _ _ => [] end) l.
Definition layer (out : list (list (list item))) (s k : nat) : list item := nth k (nth s out []) [].

(** The [k]-th token of a track on a line, unless it is an empty local comment. *)
Definition kth_of_track (tr k : nat) (toks : list itok) : list itok :=
  match nth_error (filter (fun t => i_track t =? tr) toks) k with
  | Some t => if str_eqb (i_text t) (S_ "!") then [] else [t]
  | None => []
  end.
(** The tokens of one voice of a staff in a measure. *)
Definition voice_tokens (tr k : nat) (lines : list iline) : list itok :=
  flat_map (fun l => if hasSpines (il_text l) then kth_of_track tr k (il_toks l) else []) lines.

(** The sub-spines of a staff stand side by side (spines of other kinds may be
    between them). *)
Definition side_by_side (staves : list nat) (toks : list itok) : Prop :=
  forall l1 x l2 z l3 y l4, toks = l1 ++ x :: l2 ++ z :: l3 ++ y :: l4 -> i_track x = i_track y ->
    In (i_track x) staves -> In (i_track z) staves -> i_track z = i_track x.

(** ** Lists *)

Lemma upd_nth_length {A} (v : A) l : forall i, length (upd_nth i v l) = length l.
Proof. induction l as [|x l IH]; intros [|i]; cbn; auto. Qed.
Lemma nth_upd_same {A} (v d : A) l : forall i, i < length l -> nth i (upd_nth i v l) d = v.
Proof. induction l as [|x l IH]; intros [|i] H; cbn in *; try lia; [reflexivity|apply IH; lia]. Qed.
Lemma nth_upd_other {A} (v d : A) l : forall i j, i <> j -> nth j (upd_nth i v l) d = nth j l d.
Proof. induction l as [|x l IH]; intros [|i] [|j] H; cbn; try reflexivity; try lia. apply IH. lia. Qed.
Lemma nth_error_upd_same {A} (v : A) l : forall i, i < length l -> nth_error (upd_nth i v l) i = Some v.
Proof. induction l as [|x l IH]; intros [|i] H; cbn in *; try lia; [reflexivity|apply IH; lia]. Qed.

Lemma ensure_length s li out : length (ensure s li out) = length out.
Proof. unfold ensure. destruct (_ <? _); [apply upd_nth_length|reflexivity]. Qed.
Lemma nth_snoc_nil (l : list (list item)) k : nth k (l ++ [[]]) [] = nth k l [].
Proof.
  destruct (Nat.lt_ge_cases k (length l)) as [H|H]; [apply app_nth1; exact H|].
  rewrite app_nth2 by exact H. rewrite (nth_overflow l) by exact H.
  destruct (k - length l) as [|[|n]]; reflexivity.
Qed.
Lemma ensure_layer s li out s' k : layer (ensure s li out) s' k = layer out s' k.
Proof.
  unfold ensure, layer. destruct (_ <? _); [|reflexivity].
  destruct (Nat.eq_dec s s') as [<-|N]; [|rewrite nth_upd_other by exact N; reflexivity].
  destruct (Nat.lt_ge_cases s (length out)) as [H|H].
  - rewrite nth_upd_same by exact H. apply nth_snoc_nil.
  - rewrite !(nth_overflow _ ([] : list (list item))); [reflexivity|exact H|rewrite upd_nth_length; exact H].
Qed.
Lemma ensure_count s li out s' : length (nth s' out []) <= length (nth s' (ensure s li out) []).
Proof.
  unfold ensure. destruct (_ <? _); [|lia].
  destruct (Nat.eq_dec s s') as [<-|N]; [|rewrite nth_upd_other by exact N; lia].
  destruct (Nat.lt_ge_cases s (length out)) as [H|H].
  - rewrite nth_upd_same by exact H. rewrite app_length. lia.
  - rewrite (nth_overflow out) by exact H. cbn. lia.
Qed.
Lemma ensure_grows s li out : s < length out -> li <= length (nth s out []) -> li < length (nth s (ensure s li out) []).
Proof.
  intros H K. unfold ensure. destruct (Nat.ltb_spec (length (nth s out [])) (li + 1)) as [Q|Q]; [|lia].
  rewrite nth_upd_same by exact H. rewrite app_length. cbn. lia.
Qed.

(** ** Staves *)

Lemma index_from_spec staves : forall i tr found r, NoDup staves -> index_from i staves tr found = r ->
  (exists s, nth_error staves s = Some tr /\ r = Some (i + s)) \/ (~ In tr staves /\ r = found).
Proof.
  induction staves as [|x staves IH]; intros i tr found r ND H; [right; split; [intros []|symmetry; exact H]|].
  cbn [index_from] in H. inversion ND as [|? ? NI ND']; subst x0 l.
  destruct (Nat.eqb_spec x tr) as [->|N].
  - destruct (IH _ _ _ _ ND' H) as [(s & S1 & _)|[_ R]].
    + exfalso. apply NI. eapply nth_error_In. exact S1.
    + left. exists 0. split; [reflexivity|]. rewrite R. f_equal. lia.
  - destruct (IH _ _ _ _ ND' H) as [(s & S1 & R)|[N' R]].
    + left. exists (S s). split; [exact S1|]. rewrite R. f_equal. lia.
    + right. split; [|exact R]. intros [->|X]; [congruence|contradiction].
Qed.

Lemma staffIndex_some staves tr s : NoDup staves -> staffIndex staves tr = Some s -> nth_error staves s = Some tr.
Proof.
  intros ND H. destruct (index_from_spec _ _ _ _ _ ND H) as [(s' & S1 & R)|[_ R]]; [|discriminate].
  injection R as ->. exact S1.
Qed.
Lemma staffIndex_none staves tr : NoDup staves -> staffIndex staves tr = None -> ~ In tr staves.
Proof. intros ND H. destruct (index_from_spec _ _ _ _ _ ND H) as [(s' & S1 & R)|[N _]]; [discriminate|exact N]. Qed.
Lemma nth_error_inj (staves : list nat) s s' tr : NoDup staves -> nth_error staves s = Some tr -> nth_error staves s' = Some tr -> s = s'.
Proof.
  intros ND H H'. rewrite NoDup_nth_error in ND. apply ND; [|congruence].
  apply nth_error_Some. rewrite H. discriminate.
Qed.

(** ** The contribution of a line to a layer *)

Fixpoint contr (tr k n : nat) (toks : list itok) : list itok :=
  match toks with
  | [] => []
  | t :: r => if i_track t =? tr then (if n =? k then (if empty_comment t then [] else [t]) else []) ++ contr tr k (S n) r
              else contr tr k n r
  end.

Lemma empty_comment_spec t : empty_comment t = str_eqb (i_text t) (S_ "!").
Proof.
  unfold empty_comment, tok_local_comment, tok_null.
  destruct (str_eqb (i_text t) (S_ "!")) eqn:E.
  - apply str_eqb_eq in E. rewrite E. reflexivity.
  - destruct (str_eqb (i_text t) (S_ ".")) eqn:E1; [apply str_eqb_eq in E1; rewrite E1; reflexivity|].
    destruct (str_eqb (i_text t) (S_ "*")) eqn:E2; [apply str_eqb_eq in E2; rewrite E2; reflexivity|].
    cbn [orb]. apply andb_false_r.
Qed.

Lemma contr_past tr k toks : forall n, k < n -> contr tr k n toks = [].
Proof.
  induction toks as [|t r IH]; intros n H; cbn; [reflexivity|].
  destruct (i_track t =? tr); [|apply IH; exact H].
  replace (n =? k) with false by (symmetry; apply Nat.eqb_neq; lia). cbn. apply IH. lia.
Qed.
Lemma contr_spec tr k toks : forall n, n <= k -> contr tr k n toks = kth_of_track tr (k - n) toks.
Proof.
  unfold kth_of_track. induction toks as [|t r IH]; intros n H; cbn [contr filter].
  - destruct (k - n); reflexivity.
  - destruct (Nat.eqb_spec (i_track t) tr) as [E|E]; [|apply IH; exact H].
    destruct (Nat.eqb_spec n k) as [->|N].
    + rewrite Nat.sub_diag. cbn [nth_error]. rewrite contr_past by lia. rewrite app_nil_r.
      rewrite empty_comment_spec. reflexivity.
    + rewrite IH by lia. replace (k - n) with (S (k - S n)) by lia. reflexivity.
Qed.

Definition cnt (tr : nat) (toks : list itok) : nat := length (filter (fun t => i_track t =? tr) toks).
Lemma cnt_app tr a b : cnt tr (a ++ b) = cnt tr a + cnt tr b.
Proof. unfold cnt. rewrite filter_app, app_length. reflexivity. Qed.
Lemma cnt_zero tr a : (forall t, In t a -> i_track t <> tr) -> cnt tr a = 0.
Proof.
  intros H. unfold cnt. replace (filter (fun t => i_track t =? tr) a) with (@nil itok); [reflexivity|].
  symmetry. induction a as [|x a IH]; [reflexivity|]. cbn.
  replace (i_track x =? tr) with false by (symmetry; apply Nat.eqb_neq; apply H; left; reflexivity).
  apply IH. intros t I. apply H. right. exact I.
Qed.

Lemma cnt_one t : cnt (i_track t) [t] = 1.
Proof. unfold cnt. cbn. rewrite Nat.eqb_refl. reflexivity. Qed.
Lemma cnt_other tr t : (i_track t =? tr) = false -> cnt tr [t] = 0.
Proof. intros H. unfold cnt. cbn. rewrite H. reflexivity. Qed.

(** The loop variables after the tokens [done] of a line. *)
Definition state_ok (staves : list nat) (done : list itok) (last : option nat) (li : nat) : Prop :=
  match last with
  | None => forall t, In t done -> ~ In (i_track t) staves
  | Some tr => exists d1 z d2, done = d1 ++ z :: d2 /\ i_track z = tr /\ In tr staves /\
      (forall t, In t d2 -> ~ In (i_track t) staves) /\ li + 1 = cnt tr done
  end.

Lemma state_skip staves done last li t : ~ In (i_track t) staves -> state_ok staves done last li ->
  state_ok staves (done ++ [t]) last li.
Proof.
  intros N H. destruct last as [tr|].
  - destruct H as (d1 & z & d2 & E & Z & I & F & C). exists d1, z, (d2 ++ [t]).
    split; [rewrite E, <- app_assoc; reflexivity|]. split; [exact Z|]. split; [exact I|]. split.
    + intros u U. apply in_app_or in U. destruct U as [U|[<-|[]]]; auto.
    + rewrite cnt_app, (cnt_zero tr [t]); [lia|]. intros u [<-|[]] Q. rewrite Q in N. contradiction.
  - intros u U. apply in_app_or in U. destruct U as [U|[<-|[]]]; auto.
Qed.

(** The layer index of a token is its number among the tokens of its track. *)
Lemma layer_index staves done last li t rest : side_by_side staves (done ++ t :: rest) -> In (i_track t) staves ->
  state_ok staves done last li ->
  (if same_track last t then li + 1 else 0) = cnt (i_track t) done.
Proof.
  intros SB I H. unfold same_track. destruct last as [tr|].
  - destruct H as (d1 & z & d2 & E & Z & Iz & F & C).
    destruct (Nat.eqb_spec tr (i_track t)) as [<-|N]; [exact C|].
    symmetry. apply cnt_zero. intros x X Q. subst done.
    apply in_app_or in X. destruct X as [X|[X|X]].
    + apply in_split in X. destruct X as (a & b & ->).
      assert (i_track z = i_track x); [|congruence].
      apply (SB a x b z d2 t rest).
      * rewrite <- !app_assoc. cbn. reflexivity.
      * congruence.
      * rewrite Q. exact I.
      * rewrite Z. exact Iz.
    + subst x. congruence.
    + apply (F x X). rewrite Q. exact I.
  - symmetry. apply cnt_zero. intros x X Q. apply (H x X). rewrite Q. exact I.
Qed.
Lemma state_step staves done t li : In (i_track t) staves -> li = cnt (i_track t) done ->
  state_ok staves (done ++ [t]) (Some (i_track t)) li.
Proof.
  intros I ->. exists done, t, []. split; [reflexivity|]. split; [reflexivity|]. split; [exact I|].
  split; [intros u []|]. rewrite cnt_app, cnt_one. reflexivity.
Qed.

Lemma reals_app a b : reals (a ++ b) = reals a ++ reals b.
Proof. apply flat_map_app. Qed.
Lemma fakes_at_reals ds : forall off, reals (fakes_at off ds) = [].
Proof. induction ds as [|d ds IH]; intros off; [reflexivity|]. cbn. apply IH. Qed.
Lemma makeFake_reals g o : reals (makeFakeRestTokens g o) = [].
Proof. unfold makeFakeRestTokens. destruct (getPowerOfTwoQuarterLengthsWithDotsAddingTo g); [apply fakes_at_reals|reflexivity]. Qed.
Lemma gap_fill_reals l t : reals (gap_fill l t) = [].
Proof.
  unfold gap_fill. destruct (qlt 0 (i_start t)); [|reflexivity].
  destruct (findLastNonNullDataToken l); [|reflexivity].
  match goal with |- context [if ?b then _ else _] => destruct b end; [apply makeFake_reals|reflexivity].
Qed.

Lemma put_toks_spec staves : NoDup staves -> ~ In 0 staves -> forall toks done last li out out',
  side_by_side staves (done ++ toks) -> state_ok staves done last li ->
  length out = length staves -> put_toks staves toks last li out = Some out' ->
  length out' = length staves /\
  (forall s, length (nth s out []) <= length (nth s out' [])) /\
  forall s tr k, nth_error staves s = Some tr ->
    reals (layer out' s k) = reals (layer out s k) ++ contr tr k (cnt tr done) toks.
Proof.
  intros ND N0. induction toks as [|t toks IH]; intros done last li out out' SB ST LE H.
  - injection H as <-. split; [exact LE|]. split; [lia|]. intros. cbn. rewrite app_nil_r. reflexivity.
  - cbn [put_toks] in H.
    assert (SB' : side_by_side staves ((done ++ [t]) ++ toks)) by (rewrite <- app_assoc; exact SB).
    assert (Skip : ~ In (i_track t) staves -> put_toks staves toks last li out = Some out' ->
      length out' = length staves /\ (forall s, length (nth s out []) <= length (nth s out' [])) /\
      forall s tr k, nth_error staves s = Some tr ->
        reals (layer out' s k) = reals (layer out s k) ++ contr tr k (cnt tr done) (t :: toks)).
    { intros NI H'. destruct (IH _ _ _ _ _ SB' (state_skip _ _ _ _ _ NI ST) LE H') as (A1 & A2 & A3).
      split; [exact A1|]. split; [exact A2|]. intros s tr k S1. rewrite (A3 s tr k S1).
      assert (X : (i_track t =? tr) = false).
      { apply Nat.eqb_neq. intros Q. apply NI. rewrite Q. eapply nth_error_In. exact S1. }
      cbn [contr]. rewrite X. rewrite cnt_app, (cnt_other _ _ X), Nat.add_0_r. reflexivity. }
    destruct (Nat.ltb_spec (i_track t) 1) as [Q|Q].
    { apply Skip; [|exact H]. replace (i_track t) with 0 by lia. exact N0. }
    destruct (staffIndex staves (i_track t)) as [s|] eqn:E.
    2:{ apply Skip; [|exact H]. apply staffIndex_none; assumption. }
    clear Skip. apply staffIndex_some in E; [|exact ND].
    assert (I : In (i_track t) staves) by (eapply nth_error_In; exact E).
    pose proof (layer_index staves done last li t toks SB I ST) as LI.
    set (li' := if same_track last t then li + 1 else 0) in *.
    pose proof (state_step staves done t li' I LI) as ST'.
    assert (Ls : s < length out). { rewrite LE. apply nth_error_Some. rewrite E. discriminate. }
    assert (CS : forall tr k, nth_error staves s = Some tr -> contr tr k (cnt tr done) (t :: toks) =
      (if li' =? k then (if empty_comment t then [] else [t]) else []) ++ contr tr k (cnt tr (done ++ [t])) toks).
    { intros tr k S1. assert (i_track t = tr) by congruence. subst tr. cbn [contr]. rewrite Nat.eqb_refl, LI.
      rewrite cnt_app, cnt_one, Nat.add_1_r. reflexivity. }
    assert (CO : forall s' tr k, nth_error staves s' = Some tr -> s' <> s ->
      contr tr k (cnt tr done) (t :: toks) = contr tr k (cnt tr (done ++ [t])) toks).
    { intros s' tr k S1 NE. cbn [contr].
      assert (X : (i_track t =? tr) = false).
      { apply Nat.eqb_neq. intros Q1. apply NE. rewrite Q1 in E. eapply nth_error_inj; eassumption. }
      rewrite X. rewrite cnt_app, (cnt_other _ _ X), Nat.add_0_r. reflexivity. }
    destruct (empty_comment t) eqn:EC.
    + destruct (IH _ _ _ _ _ SB' ST' LE H) as (A1 & A2 & A3). split; [exact A1|]. split; [exact A2|].
      intros s' tr k S1. rewrite (A3 s' tr k S1). destruct (Nat.eq_dec s' s) as [->|NE].
      * rewrite CS by exact S1. destruct (li' =? k); reflexivity.
      * rewrite (CO s') by assumption. reflexivity.
    + destruct (nth_error (nth s (ensure s li' out) []) li') as [l|] eqn:EL; [|discriminate].
      assert (Ll : li' < length (nth s (ensure s li' out) [])) by (apply nth_error_Some; rewrite EL; discriminate).
      assert (El : l = layer out s li').
      { rewrite <- (ensure_layer s li'). unfold layer. symmetry. apply nth_error_nth. exact EL. }
      match type of H with put_toks _ _ _ _ ?o = _ => set (out1 := o) in * end.
      assert (L1 : length out1 = length staves) by (unfold out1; rewrite upd_nth_length, ensure_length; exact LE).
      destruct (IH _ _ _ _ _ SB' ST' L1 H) as (A1 & A2 & A3). split; [exact A1|].
      assert (M : forall s', length (nth s' (ensure s li' out) []) = length (nth s' out1 [])).
      { intros s'. unfold out1. destruct (Nat.eq_dec s s') as [<-|NE].
        - rewrite nth_upd_same by (rewrite ensure_length; exact Ls). rewrite upd_nth_length. reflexivity.
        - rewrite nth_upd_other by exact NE. reflexivity. }
      split.
      { intros s'. specialize (A2 s'). rewrite <- M in A2. pose proof (ensure_count s li' out s'). lia. }
      intros s' tr k S1. rewrite (A3 s' tr k S1).
      assert (LY : layer out1 s' k = if (s' =? s) && (k =? li') then l ++ gap_fill l t ++ [Real t] else layer out s' k).
      { unfold out1. unfold layer at 1. destruct (Nat.eqb_spec s' s) as [->|NE]; cbn [andb].
        - rewrite nth_upd_same by (rewrite ensure_length; exact Ls). destruct (Nat.eqb_spec k li') as [->|NK].
          + rewrite nth_upd_same by exact Ll. reflexivity.
          + rewrite nth_upd_other by (intro; congruence). apply (ensure_layer s li' out s k).
        - rewrite nth_upd_other by (intro; congruence). apply (ensure_layer s li' out s' k). }
      rewrite LY. destruct (Nat.eqb_spec s' s) as [->|NE]; cbn [andb].
      * rewrite CS by exact S1. rewrite (Nat.eqb_sym li' k). destruct (Nat.eqb_spec k li') as [->|NK].
        -- rewrite El, !reals_app, gap_fill_reals. cbn [reals flat_map app]. rewrite <- app_assoc. reflexivity.
        -- reflexivity.
      * rewrite (CO s') by assumption. reflexivity.
Qed.

Lemma put_lines_spec staves : NoDup staves -> ~ In 0 staves -> forall lines out out',
  (forall l, In l lines -> hasSpines (il_text l) = true -> side_by_side staves (il_toks l)) ->
  length out = length staves -> put_lines staves lines out = Some out' ->
  length out' = length staves /\
  forall s tr k, nth_error staves s = Some tr ->
    reals (layer out' s k) = reals (layer out s k) ++ voice_tokens tr k lines.
Proof.
  intros ND N0. induction lines as [|l lines IH]; intros out out' SB LE H.
  - injection H as <-. split; [exact LE|]. intros. cbn. rewrite app_nil_r. reflexivity.
  - cbn [put_lines] in H. unfold voice_tokens. cbn [flat_map]. fold (voice_tokens).
    assert (SB' : forall l, In l lines -> hasSpines (il_text l) = true -> side_by_side staves (il_toks l)) by (intros; apply SB; [right|]; assumption).
    destruct (hasSpines (il_text l)) eqn:E; cbn [negb] in H.
    + destruct (put_toks staves (il_toks l) None 0 out) as [out1|] eqn:E1; [|discriminate].
      assert (S0 : state_ok staves [] None 0) by (intros t []).
      destruct (put_toks_spec staves ND N0 (il_toks l) [] None 0 out out1 (SB l (or_introl eq_refl) E) S0 LE E1) as (A1 & _ & A3).
      destruct (IH _ _ SB' A1 H) as (B1 & B3). split; [exact B1|]. intros s tr k S1.
      rewrite (B3 s tr k S1), (A3 s tr k S1), <- app_assoc. f_equal. f_equal.
      replace (cnt tr []) with 0 by reflexivity. rewrite contr_spec by lia. rewrite Nat.sub_0_r. reflexivity.
    + apply IH; assumption.
Qed.

(** The first pass makes empty layers only. *)
Definition all_empty (out : list (list (list item))) : Prop := forall s k, layer out s k = [].
Lemma ensure_empty s li out : all_empty out -> all_empty (ensure s li out).
Proof. intros H s' k. rewrite ensure_layer. apply H. Qed.
Lemma pre_toks_empty staves toks : forall last li out, all_empty out ->
  all_empty (pre_toks staves toks last li out) /\ length (pre_toks staves toks last li out) = length out.
Proof.
  induction toks as [|t toks IH]; intros last li out H; cbn [pre_toks]; [split; [exact H|reflexivity]|].
  destruct (negb (i_staff t)); [apply IH; exact H|].
  destruct (negb (same_track last t)); [apply IH; exact H|].
  match goal with |- context [ensure ?a ?b out] => destruct (IH last (li + 1) (ensure a b out) (ensure_empty a b out H)) as [A1 A2] end.
  rewrite ensure_length in A2. split; assumption.
Qed.
Lemma pre_lines_empty staves lines : forall prev out, all_empty out ->
  all_empty (pre_lines staves prev lines out) /\ length (pre_lines staves prev lines out) = length out.
Proof.
  induction lines as [|l lines IH]; intros prev out H; cbn [pre_lines]; [split; [exact H|reflexivity]|].
  match goal with |- context [if ?b then out else _] => destruct b end; [apply IH; exact H|].
  destruct (pre_toks_empty staves (il_toks l) None 0 out H) as [A1 A2].
  destruct (IH (Some (il_text l)) _ A1) as [B1 B2]. split; [exact B1|congruence].
Qed.
Lemma start_empty staves : all_empty (map (fun _ : nat => []) staves).
Proof.
  intros s k. unfold layer. assert (nth s (map (fun _ : nat => @nil (list item)) staves) [] = []) as ->.
  { revert s. induction staves as [|x staves IH]; intros [|s]; cbn; auto. }
  destruct k; reflexivity.
Qed.

Theorem layerTokens_reals staves lines out : NoDup staves -> ~ In 0 staves ->
  (forall l, In l lines -> hasSpines (il_text l) = true -> side_by_side staves (il_toks l)) ->
  layerTokens staves lines = Some out ->
  length out = length staves /\
  forall s tr k, nth_error staves s = Some tr -> reals (layer out s k) = voice_tokens tr k lines.
Proof.
  intros ND N0 SB H. unfold layerTokens in H.
  destruct (pre_lines_empty staves lines None _ (start_empty staves)) as [A1 A2]. rewrite map_length in A2.
  destruct (put_lines_spec staves ND N0 lines _ out SB A2 H) as (B1 & B3). split; [exact B1|].
  intros s tr k S1. rewrite (B3 s tr k S1), A1. reflexivity.
Qed.

(** ** No index is out of range *)

(** Staff and layer index of the tokens of a line, from the tracks alone. *)
Fixpoint idxs (staves : list nat) (trs : list nat) (last : option nat) (li : nat) : list (nat * nat) :=
  match trs with
  | [] => []
  | tr :: trs' =>
      match staffIndex staves tr with
      | None => idxs staves trs' last li
      | Some s =>
          let li' := if match last with Some n => n =? tr | None => false end then li + 1 else 0 in
          (s, li') :: idxs staves trs' (Some tr) li'
      end
  end.
Definition enough (out : list (list (list item))) (is : list (nat * nat)) : Prop :=
  forall s li, In (s, li) is -> s < length out /\ li <= length (nth s out []).

Definition le_out (a b : list (list (list item))) : Prop :=
  length a = length b /\ forall s, length (nth s a []) <= length (nth s b []).
Lemma enough_le a b is : le_out a b -> enough a is -> enough b is.
Proof. intros [L M] H s li I. destruct (H s li I) as [H1 H2]. specialize (M s). lia. Qed.
Lemma le_refl_out a : le_out a a.
Proof. split; [reflexivity|lia]. Qed.
Lemma le_trans_out a b c : le_out a b -> le_out b c -> le_out a c.
Proof. intros [L M] [L' M']. split; [congruence|]. intros s. specialize (M s). specialize (M' s). lia. Qed.
Lemma ensure_le s li out : le_out out (ensure s li out).
Proof. split; [symmetry; apply ensure_length|intros s'; apply ensure_count]. Qed.

Lemma put_toks_total staves : ~ In 0 staves -> NoDup staves -> forall toks last li out,
  enough out (idxs staves (map i_track toks) last li) ->
  exists out', put_toks staves toks last li out = Some out' /\ le_out out out'.
Proof.
  intros N0 ND. induction toks as [|t toks IH]; intros last li out H; [exists out; split; [reflexivity|apply le_refl_out]|].
  cbn [put_toks]. cbn [map idxs] in H.
  destruct (Nat.ltb_spec (i_track t) 1) as [Q|Q].
  - replace (staffIndex staves (i_track t)) with (@None nat) in H; [apply IH; exact H|].
    symmetry. destruct (staffIndex staves (i_track t)) as [s|] eqn:E; [|reflexivity].
    apply staffIndex_some in E; [|exact ND]. apply nth_error_In in E. replace (i_track t) with 0 in E by lia. contradiction.
  - destruct (staffIndex staves (i_track t)) as [s|]; [|apply IH; exact H].
    change (match last with Some n => n =? i_track t | None => false end) with (same_track last t) in H.
    set (li' := if same_track last t then li + 1 else 0) in *.
    assert (H' : enough out (idxs staves (map i_track toks) (Some (i_track t)) li')).
    { intros a b I. apply H. right. exact I. }
    destruct (H s li' (or_introl eq_refl)) as [Ls Ll].
    destruct (empty_comment t); [apply IH; exact H'|].
    pose proof (ensure_grows s li' out Ls Ll) as G.
    destruct (nth_error (nth s (ensure s li' out) []) li') as [l|] eqn:E.
    2:{ apply nth_error_None in E. lia. }
    match goal with |- exists _, put_toks _ _ _ _ ?o = _ /\ _ => set (out1 := o) end.
    assert (LE : le_out out out1).
    { apply le_trans_out with (ensure s li' out); [apply ensure_le|]. unfold out1. split; [symmetry; apply upd_nth_length|].
      intros s'. destruct (Nat.eq_dec s s') as [<-|NE].
      - rewrite nth_upd_same by (rewrite ensure_length; exact Ls). rewrite upd_nth_length. lia.
      - rewrite nth_upd_other by exact NE. lia. }
    destruct (IH (Some (i_track t)) li' out1 (enough_le _ _ _ LE H')) as (out' & P & L').
    exists out'. split; [exact P|]. eapply le_trans_out; eassumption.
Qed.

Definition staff_flags (staves : list nat) (toks : list itok) : Prop :=
  forall t, In t toks -> (i_staff t = true <-> In (i_track t) staves).

Lemma pre_toks_enough staves : NoDup staves -> forall toks last li out,
  staff_flags staves toks -> length out = length staves ->
  (forall n s, last = Some n -> staffIndex staves n = Some s -> li <= length (nth s out [])) ->
  let out' := pre_toks staves toks last li out in
  le_out out out' /\ enough out' (idxs staves (map i_track toks) last li).
Proof.
  intros ND. induction toks as [|t toks IH]; intros last li out SF LE H; [split; [apply le_refl_out|intros s l []]|].
  cbn [pre_toks map idxs].
  assert (SF' : staff_flags staves toks) by (intros u U; apply SF; right; exact U).
  pose proof (SF t (or_introl eq_refl)) as F.
  destruct (staffIndex staves (i_track t)) as [s|] eqn:E.
  - pose proof (staffIndex_some _ _ _ ND E) as E'.
    assert (i_staff t = true) as ->.
    { apply F. eapply nth_error_In. exact E'. }
    cbn [negb]. assert (Ls : s < length staves) by (apply nth_error_Some; rewrite E'; discriminate).
    change (match last with Some n => n =? i_track t | None => false end) with (same_track last t).
    destruct (same_track last t) eqn:ST; cbn [negb].
    + destruct last as [n|]; [|discriminate]. cbn in ST. apply Nat.eqb_eq in ST. subst n.
      specialize (H (i_track t) s eq_refl E).
      assert (G : li + 1 <= length (nth s (ensure s (li + 1) out) [])).
      { unfold ensure. destruct (Nat.ltb_spec (length (nth s out [])) (li + 1 + 1)) as [Q|Q]; [|lia].
        rewrite nth_upd_same by lia. rewrite app_length. cbn. lia. }
      destruct (IH (Some (i_track t)) (li + 1) (ensure s (li + 1) out) SF') as [A1 A2].
      * rewrite ensure_length. exact LE.
      * intros n s' Hn Hs. injection Hn as <-. rewrite E in Hs. injection Hs as <-. exact G.
      * split; [eapply le_trans_out; [apply ensure_le|exact A1]|].
        intros a b [I|I]; [|apply A2; exact I]. injection I as <- <-.
        destruct A1 as [L1 M1]. rewrite <- L1, ensure_length. split; [lia|]. specialize (M1 s). lia.
    + destruct (IH (Some (i_track t)) 0 out SF' LE) as [A1 A2].
      * intros. lia.
      * split; [exact A1|]. intros a b [I|I]; [|apply A2; exact I]. injection I as <- <-.
        destruct A1 as [L1 M1]. split; [lia|lia].
  - assert (i_staff t = false) as ->.
    { destruct (i_staff t) eqn:X; [|reflexivity]. exfalso. apply (staffIndex_none _ _ ND E). apply F. reflexivity. }
    cbn [negb]. apply IH; assumption.
Qed.

Lemma data_spined text : isDataLine text = true -> hasSpines text = true.
Proof.
  unfold hasSpines, isGlobalLine, isDataLine. intros H. destruct text as [|c t]; [cbn in H; rewrite ?orb_true_r in H; discriminate|].
  apply negb_true_iff. apply not_true_is_false. intros X.
  change (S_ "!!") with ["!"; "!"]%char in X. cbn [starts_with] in X. apply andb_true_iff in X. destruct X as [X _].
  apply Ascii.eqb_eq in X. subst c. cbn in H. discriminate.
Qed.

(** A data line right after a data line has the same spines. *)
Definition data_lines_alike (lines : list iline) : Prop :=
  forall a p l b, lines = a ++ p :: l :: b -> isDataLine (il_text p) = true -> isDataLine (il_text l) = true ->
    map i_track (il_toks p) = map i_track (il_toks l).

Lemma pre_lines_enough staves : NoDup staves -> forall lines prev out,
  (forall l, In l lines -> hasSpines (il_text l) = true -> staff_flags staves (il_toks l)) ->
  length out = length staves ->
  data_lines_alike (match prev with Some p => p :: lines | None => lines end) ->
  (forall p, prev = Some p -> isDataLine (il_text p) = true -> enough out (idxs staves (map i_track (il_toks p)) None 0)) ->
  let out' := pre_lines staves (option_map il_text prev) lines out in
  le_out out out' /\
  forall l, In l lines -> hasSpines (il_text l) = true -> enough out' (idxs staves (map i_track (il_toks l)) None 0).
Proof.
  intros ND. induction lines as [|l lines IH]; intros prev out SF LE DA PE; [split; [apply le_refl_out|intros l []]|].
  cbn [pre_lines].
  set (skip := match option_map il_text prev with Some p => isDataLine (il_text l) && isDataLine p | None => false end).
  set (out1 := if skip || negb (hasSpines (il_text l)) then out else pre_toks staves (il_toks l) None 0 out).
  assert (SF' : forall l, In l lines -> hasSpines (il_text l) = true -> staff_flags staves (il_toks l)) by (intros; apply SF; [right|]; assumption).
  assert (X : le_out out out1 /\ (hasSpines (il_text l) = true -> enough out1 (idxs staves (map i_track (il_toks l)) None 0))).
  { unfold out1. destruct (hasSpines (il_text l)) eqn:HSp; cbn [negb].
    2:{ rewrite orb_true_r. split; [apply le_refl_out|discriminate]. }
    rewrite orb_false_r. destruct skip eqn:SK.
    - split; [apply le_refl_out|]. intros _. unfold skip in SK. destruct prev as [p|]; cbn [option_map] in SK; [|discriminate].
      apply andb_true_iff in SK. destruct SK as [S1 S2].
      rewrite <- (DA [] p l lines eq_refl S2 S1). apply PE; [reflexivity|exact S2].
    - destruct (pre_toks_enough staves ND (il_toks l) None 0 out (SF l (or_introl eq_refl) HSp) LE) as [A1 A2]; [discriminate|].
      split; [exact A1|intros _; exact A2]. }
  destruct X as [X1 X2].
  destruct (IH (Some l) out1 SF') as [B1 B2].
  - destruct X1 as [X1 _]. congruence.
  - intros a p m b E. destruct prev as [q|].
    + apply (DA (q :: a) p m b). cbn. rewrite E. reflexivity.
    + apply (DA a p m b). exact E.
  - intros p Hp Dp. injection Hp as <-. apply X2. apply data_spined. exact Dp.
  - cbn [option_map] in B1, B2. split; [eapply le_trans_out; eassumption|].
    intros m [<-|I] Hm; [|apply B2; assumption]. eapply enough_le; [exact B1|apply X2; exact Hm].
Qed.

Lemma put_lines_total staves : ~ In 0 staves -> NoDup staves -> forall lines out,
  (forall l, In l lines -> hasSpines (il_text l) = true -> enough out (idxs staves (map i_track (il_toks l)) None 0)) ->
  exists out', put_lines staves lines out = Some out'.
Proof.
  intros N0 ND. induction lines as [|l lines IH]; intros out H; [eexists; reflexivity|].
  cbn [put_lines]. destruct (hasSpines (il_text l)) eqn:E; cbn [negb].
  - destruct (put_toks_total staves N0 ND (il_toks l) None 0 out (H l (or_introl eq_refl) E)) as (out1 & -> & LE).
    apply IH. intros m I Hm. eapply enough_le; [exact LE|]. apply H; [right; exact I|exact Hm].
  - apply IH. intros m I Hm. apply H; [right; exact I|exact Hm].
Qed.

Theorem layerTokens_total staves lines : NoDup staves -> ~ In 0 staves ->
  (forall l, In l lines -> hasSpines (il_text l) = true -> staff_flags staves (il_toks l)) ->
  data_lines_alike lines -> exists out, layerTokens staves lines = Some out.
Proof.
  intros ND N0 SF DA. unfold layerTokens. apply put_lines_total; [exact N0|exact ND|].
  destruct (pre_lines_enough staves ND lines None (map (fun _ => []) staves) SF) as [_ X].
  - apply map_length.
  - exact DA.
  - discriminate.
  - exact X.
Qed.

(** ** Gaps *)

Inductive built : list item -> Prop :=
| built_nil : built []
| built_snoc l t : built l -> built (l ++ gap_fill l t ++ [Real t]).

Definition all_built (out : list (list (list item))) : Prop := forall s k, built (layer out s k).

Lemma put_toks_built staves toks : forall last li out out', all_built out ->
  put_toks staves toks last li out = Some out' -> all_built out'.
Proof.
  induction toks as [|t toks IH]; intros last li out out' H P; [injection P as <-; exact H|].
  cbn [put_toks] in P. destruct (i_track t <? 1); [eapply IH; eassumption|].
  destruct (staffIndex staves (i_track t)) as [s|]; [|eapply IH; eassumption].
  destruct (empty_comment t); [eapply IH; eassumption|].
  set (li' := if same_track last t then li + 1 else 0) in *.
  destruct (nth_error (nth s (ensure s li' out) []) li') as [l|] eqn:E; [|discriminate].
  eapply IH; [|exact P]. intros s' k.
  assert (El : l = layer out s li').
  { rewrite <- (ensure_layer s li'). unfold layer. symmetry. apply nth_error_nth. exact E. }
  assert (Ll : li' < length (nth s (ensure s li' out) [])) by (apply nth_error_Some; rewrite E; discriminate).
  unfold layer. destruct (Nat.lt_ge_cases s (length out)) as [Ls|Ls].
  2:{ rewrite nth_overflow in Ll by (rewrite ensure_length; exact Ls). cbn in Ll. lia. }
  destruct (Nat.eq_dec s s') as [<-|NE].
  - rewrite nth_upd_same by (rewrite ensure_length; exact Ls). destruct (Nat.eq_dec li' k) as [<-|NK].
    + rewrite nth_upd_same by exact Ll. rewrite El. apply built_snoc. apply H.
    + rewrite nth_upd_other by exact NK. fold (layer (ensure s li' out) s k). rewrite ensure_layer. apply H.
  - rewrite nth_upd_other by exact NE. fold (layer (ensure s li' out) s' k). rewrite ensure_layer. apply H.
Qed.
Lemma put_lines_built staves lines : forall out out', all_built out -> put_lines staves lines out = Some out' -> all_built out'.
Proof.
  induction lines as [|l lines IH]; intros out out' H P; [injection P as <-; exact H|].
  cbn [put_lines] in P. destruct (negb (hasSpines (il_text l))); [eapply IH; eassumption|].
  destruct (put_toks staves (il_toks l) None 0 out) as [out1|] eqn:E; [|discriminate].
  eapply IH; [|exact P]. eapply put_toks_built; eassumption.
Qed.
Theorem layerTokens_built staves lines out : layerTokens staves lines = Some out -> all_built out.
Proof.
  unfold layerTokens. intros H. eapply put_lines_built; [|exact H].
  destruct (pre_lines_empty staves lines None _ (start_empty staves)) as [A1 _].
  intros s k. rewrite A1. constructor.
Qed.

(** Rests that follow each other from offset [a] to offset [b]. *)
Fixpoint tiles (a b : Q) (l : list item) : Prop :=
  match l with
  | [] => (a == b)%Q
  | Fake d o :: l' => (o == a)%Q /\ (0 < d)%Q /\ tiles (a + d)%Q b l'
  | Real _ :: _ => False
  end.

Lemma tiles_compat l : forall a a' b b', (a == a')%Q -> (b == b')%Q -> tiles a b l -> tiles a' b' l.
Proof.
  induction l as [|[t|d o] l IH]; intros a a' b b' E E' H; cbn in *; [lra|contradiction|].
  destruct H as (H1 & H2 & H3). split; [lra|]. split; [exact H2|].
  apply (IH (a + d)%Q _ b _); [lra|exact E'|exact H3].
Qed.
Lemma fakes_tile ds : forall off, Forall (fun d => 0 < d)%Q ds -> tiles off (off + fold_right Qplus 0 ds)%Q (fakes_at off ds).
Proof.
  induction ds as [|d ds IH]; intros off H; cbn; [lra|].
  inversion H as [|? ? H1 H2]; subst. split; [reflexivity|]. split; [exact H1|].
  eapply tiles_compat; [reflexivity| |apply IH; exact H2]. lra.
Qed.
Lemma makeFake_tiles g o : (0 < g)%Q -> tiles o (o + g)%Q (makeFakeRestTokens g o).
Proof.
  intros G. unfold makeFakeRestTokens.
  destruct (getPowerOfTwoQuarterLengthsWithDotsAddingTo g) as [l|] eqn:E; [|destruct (split_total g E)].
  destruct (split_adds _ _ E) as [S1 F].
  assert (P : Forall (fun d => 0 < d)%Q l).
  { destruct (F G) as [->|X]; [repeat constructor; exact G|]. eapply Forall_impl; [|exact X]. intros a (A & _). exact A. }
  eapply tiles_compat; [reflexivity| |apply fakes_tile; exact P]. rewrite S1. reflexivity.
Qed.

Lemma app_split {A} (a b c d : list A) x : a ++ b = c ++ x :: d -> ~ In x b -> exists e, a = c ++ x :: e /\ d = e ++ b.
Proof.
  revert c. induction a as [|y a IH]; intros c H N; cbn in H.
  - exfalso. apply N. rewrite H. apply in_or_app. right. left. reflexivity.
  - destruct c as [|z c]; cbn in H.
    + injection H as -> <-. exists a. split; reflexivity.
    + injection H as -> H. destruct (IH c H N) as (e & -> & ->). exists e. split; reflexivity.
Qed.

Lemma reals_nil_no_real l t : reals l = [] -> ~ In (Real t) l.
Proof.
  intros H I. apply in_split in I. destruct I as (a & b & ->). rewrite reals_app in H.
  apply app_eq_nil in H. destruct H as [_ H]. discriminate.
Qed.

Lemma snoc_split {A} (l : list A) x l1 b l2 : l ++ [x] = l1 ++ b :: l2 ->
  (l2 = [] /\ l = l1 /\ x = b) \/ exists l2', l2 = l2' ++ [x] /\ l = l1 ++ b :: l2'.
Proof.
  intros H. destruct l2 as [|y l2 _] using rev_ind.
  - left. apply app_inj_tail in H. destruct H as [-> ->]. auto.
  - right. exists l2. assert (E : l1 ++ b :: l2 ++ [y] = (l1 ++ b :: l2) ++ [y]) by (rewrite <- app_assoc; reflexivity).
    rewrite E in H. apply app_inj_tail in H. destruct H as [-> ->]. auto.
Qed.

Lemma built_split l : built l -> forall l1 b l2, l = l1 ++ Real b :: l2 ->
  exists l0, built l0 /\ l1 = l0 ++ gap_fill l0 b.
Proof.
  induction 1 as [|l t H IH]; intros l1 b l2 E; [destruct l1; discriminate|].
  rewrite app_assoc in E. apply snoc_split in E. destruct E as [(-> & E & Et)|(l2' & -> & E)].
  - injection Et as <-. exists l. split; [exact H|symmetry; exact E].
  - destruct (app_split _ _ _ _ _ E (reals_nil_no_real _ _ (gap_fill_reals l t))) as (e & -> & _).
    eapply IH. reflexivity.
Qed.

Definition sounding (x : item) : Prop := match x with Real t => tok_nonnull_data (i_text t) = true | Fake _ _ => False end.

Lemma last_data_from_skip l a r : Forall (fun x => ~ sounding x) l -> tok_nonnull_data (i_text a) = true ->
  last_data_from (l ++ Real a :: r) = Some a.
Proof.
  intros F S1. induction F as [|x l Hx F IH]; cbn; [rewrite S1; reflexivity|].
  destruct x as [t|d o]; [|exact IH]. cbn in Hx. destruct (tok_nonnull_data (i_text t)); [exfalso; apply Hx; reflexivity|exact IH].
Qed.
Lemma last_data_at l1 a mid : Forall (fun x => ~ sounding x) mid -> tok_nonnull_data (i_text a) = true ->
  findLastNonNullDataToken (l1 ++ Real a :: mid) = Some a.
Proof.
  intros F S1. unfold findLastNonNullDataToken. rewrite rev_app_distr. cbn [rev]. rewrite <- app_assoc. cbn [app].
  apply last_data_from_skip; [|exact S1]. apply Forall_rev. exact F.
Qed.

Lemma qlt_spec a b : qlt a b = true <-> (a < b)%Q.
Proof.
  unfold qlt. rewrite negb_true_iff. split.
  - intros H. apply Qnot_le_lt. intros X. apply Qle_bool_iff in X. congruence.
  - intros H. apply not_true_is_false. intros X. apply Qle_bool_iff in X. lra.
Qed.

(** The end of a token. *)
Definition tok_end (t : itok) : Q := (i_start t + (if Qlt_le_dec (i_dur t) 0 then 0 else i_dur t))%Q.
Lemma qmax0_end t : (i_start t + qmax0 (i_dur t) == tok_end t)%Q.
Proof.
  unfold tok_end, qmax0. destruct (Qlt_le_dec (i_dur t) 0) as [H|H].
  - destruct (Qle_bool 0 (i_dur t)) eqn:E; [apply Qle_bool_iff in E; lra|reflexivity].
  - apply Qle_bool_iff in H. rewrite H. reflexivity.
Qed.

Theorem built_filled l : built l -> forall l1 a mid b l2, l = l1 ++ Real a :: mid ++ Real b :: l2 ->
  tok_nonnull_data (i_text a) = true -> Forall (fun x => ~ sounding x) mid ->
  (0 < i_start b)%Q -> (tok_end a < i_start b)%Q ->
  exists mid0 rests, mid = mid0 ++ rests /\
    tiles (i_bar b - (i_start b - tok_end a))%Q (i_bar b) rests /\ built (l1 ++ Real a :: mid0).
Proof.
  intros H l1 a mid b l2 E Sa F Pb G.
  assert (E' : l = (l1 ++ Real a :: mid) ++ Real b :: l2) by (rewrite E, <- app_assoc; reflexivity).
  destruct (built_split l H _ _ _ E') as (l0 & B0 & E0).
  symmetry in E0.
  destruct (app_split _ _ _ _ _ E0 (reals_nil_no_real _ _ (gap_fill_reals l0 b))) as (mid0 & -> & ->).
  exists mid0, (gap_fill (l1 ++ Real a :: mid0) b). split; [reflexivity|]. split; [|exact B0].
  apply Forall_app in F. destruct F as [F0 _].
  unfold gap_fill. rewrite (proj2 (qlt_spec _ _) Pb), (last_data_at _ _ _ F0 Sa). cbv zeta.
  pose proof (qmax0_end a) as QE. replace (qlt 0 (i_start b - (i_start a + qmax0 (i_dur a)))) with true.
  2:{ symmetry. apply qlt_spec. lra. }
  eapply tiles_compat; [| |apply makeFake_tiles]; lra.
Qed.

(** No other rests, when nothing of the voice stands between the two tokens at a
    later time than the end of the first. *)
Theorem built_once l : built l -> forall l1 a mid, l = l1 ++ Real a :: mid ->
  tok_nonnull_data (i_text a) = true -> Forall (fun x => ~ sounding x) mid ->
  (forall t, In (Real t) mid -> (i_start t <= tok_end a)%Q) ->
  mid = map Real (reals mid).
Proof.
  induction 1 as [|l t H IH]; intros l1 a mid E Sa F LE; [destruct l1; discriminate|].
  rewrite app_assoc in E. apply snoc_split in E. destruct E as [(-> & E & Et)|(mid' & -> & E)].
  - reflexivity.
  - destruct (app_split _ _ _ _ _ E (reals_nil_no_real _ _ (gap_fill_reals l t))) as (mid0 & El & ->).
    apply Forall_app in F. destruct F as [F1 _]. apply Forall_app in F1. destruct F1 as [F0 _].
    assert (G : gap_fill l t = []).
    { unfold gap_fill. rewrite El. rewrite (last_data_at _ _ _ F0 Sa). cbv zeta.
      pose proof (qmax0_end a) as QE.
      destruct (qlt 0 (i_start t)); [|reflexivity].
      destruct (qlt 0 (i_start t - (i_start a + qmax0 (i_dur a)))) eqn:Q; [|reflexivity].
      apply qlt_spec in Q.
      assert (X : (i_start t <= tok_end a)%Q) by (apply LE; apply in_or_app; right; left; reflexivity). lra. }
    rewrite G, app_nil_r in *.
    rewrite reals_app, map_app. cbn. rewrite <- (IH l1 a mid0 El Sa F0); [reflexivity|].
    intros u U. apply LE. apply in_or_app. left. exact U.
Qed.

Lemma built_prefix l : built l -> forall l1 b l2, l = l1 ++ Real b :: l2 -> built (l1 ++ [Real b]).
Proof.
  intros H l1 b l2 E. destruct (built_split l H l1 b l2 E) as (l0 & B0 & ->).
  rewrite <- app_assoc. apply built_snoc. exact B0.
Qed.
Lemma gap_fill_none l t a : findLastNonNullDataToken l = Some a -> (i_start t <= tok_end a)%Q -> gap_fill l t = [].
Proof.
  intros F G. unfold gap_fill. rewrite F. cbv zeta. pose proof (qmax0_end a) as QE.
  destruct (qlt 0 (i_start t)); [|reflexivity].
  destruct (qlt 0 (i_start t - (i_start a + qmax0 (i_dur a)))) eqn:Q; [|reflexivity].
  apply qlt_spec in Q. lra.
Qed.

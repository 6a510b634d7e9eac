(** Property theorems C94 and C95: staves, voices and gaps of an imported measure. *)
From Verif Require Import PyStr PyStrProofs LayoutModel TextModel SpineModel ImportModel ImportProofs RecipModel DurationModel VoiceModel VoiceProofs.
From Coq Require Import QArith Lia.
Local Close Scope Q_scope.

(** C94.  The tokens of voice [k] of a staff are the [k]-th tokens of its track
    on each line of the measure, in the order of the lines, nothing else and
    nothing left out (but empty comments), whatever happens in other spines. *)
Theorem C94_voices_partial : forall staves lines out,
  NoDup staves -> ~ In 0 staves ->
  (forall l, In l lines -> hasSpines (il_text l) = true -> side_by_side staves (il_toks l)) ->
  layerTokens staves lines = Some out ->
  length out = length staves /\
  forall s tr k, nth_error staves s = Some tr -> reals (layer out s k) = voice_tokens tr k lines.
Proof. intros staves lines out ND N0 SS H. exact (layerTokens_reals staves lines out ND N0 SS H). Qed.
Print Assumptions C94_voices_partial.

(** No measure makes the distribution fail. *)
Theorem C94_total : forall staves lines,
  NoDup staves -> ~ In 0 staves ->
  (forall l t, In l lines -> hasSpines (il_text l) = true -> In t (il_toks l) ->
     (i_staff t = true <-> In (i_track t) staves)) ->
  (forall a p l b, lines = a ++ p :: l :: b -> isDataLine (il_text p) = true -> isDataLine (il_text l) = true ->
     map i_track (il_toks p) = map i_track (il_toks l)) ->
  exists out, layerTokens staves lines = Some out.
Proof.
  intros staves lines ND N0 SF DA. apply layerTokens_total; [exact ND|exact N0| |exact DA].
  intros l I H t T. exact (SF l t I H T).
Qed.
Print Assumptions C94_total.

(** Two staves; the first splits in two for the second half of the measure. *)
Definition tk (text : str) (tr : nat) (d s b : Q) : itok := mkI text tr true d s b.
Definition ex94 : list iline :=
  [ mkIL (S_ "=1	=1") [tk (S_ "=1") 1 (-1) 0 0; tk (S_ "=1") 2 (-1) 0 0];
    mkIL (S_ "2c	1e") [tk (S_ "2c") 1 2 0 0; tk (S_ "1e") 2 4 0 0];
    mkIL (S_ "*^	*") [tk (S_ "*^") 1 (-1) 2 2; tk (S_ "*") 2 (-1) 2 2];
    mkIL (S_ "2d	2f	.") [tk (S_ "2d") 1 2 2 2; tk (S_ "2f") 1 2 2 2; tk (S_ ".") 2 (-1) 2 2];
    mkIL (S_ "*v	*v	*") [tk (S_ "*v") 1 (-1) 4 4; tk (S_ "*v") 1 (-1) 4 4; tk (S_ "*") 2 (-1) 4 4];
    mkIL (S_ "==	==") [tk (S_ "==") 1 (-1) 4 4; tk (S_ "==") 2 (-1) 4 4] ]%Q.
Fixpoint ascending (l : list nat) : bool :=
  match l with [] => true | x :: l' => forallb (fun y => x <=? y) l' && ascending l' end.
Lemma ascending_app a b : ascending (a ++ b) = true -> ascending b = true.
Proof. induction a as [|x a IH]; cbn; [auto|]. intros H. apply andb_true_iff in H. apply IH, H. Qed.
Lemma ascending_side staves toks : ascending (map i_track toks) = true -> side_by_side staves toks.
Proof.
  intros H l1 x l2 z l3 y l4 -> E _ _. rewrite map_app in H. apply ascending_app in H. cbn [map ascending] in H.
  apply andb_true_iff in H. destruct H as [H1 H2]. rewrite forallb_forall in H1.
  assert (X : i_track x <= i_track z).
  { apply Nat.leb_le, H1. rewrite map_app. apply in_or_app. right. left. reflexivity. }
  rewrite map_app in H2. apply ascending_app in H2. cbn [map ascending] in H2.
  apply andb_true_iff in H2. destruct H2 as [H2 _]. rewrite forallb_forall in H2.
  assert (Y : i_track z <= i_track y).
  { apply Nat.leb_le, H2. rewrite map_app. apply in_or_app. right. left. reflexivity. }
  lia.
Qed.
Lemma ex94_side : forall l, In l ex94 -> hasSpines (il_text l) = true -> side_by_side [1; 2] (il_toks l).
Proof.
  intros l I _. apply ascending_side.
  cbn [In ex94] in I. repeat destruct I as [<-|I]; try contradiction; vm_compute; reflexivity.
Qed.
Example C94_nonvacuous :
  exists out, layerTokens [1; 2] ex94 = Some out /\
    map i_text (reals (layer out 0 0)) = map S_ ["=1"; "2c"; "*^"; "2d"; "*v"; "=="]%string /\
    map i_text (reals (layer out 0 1)) = map S_ ["2f"; "*v"]%string /\
    map i_text (reals (layer out 1 0)) = map S_ ["=1"; "1e"; "*"; "."; "*"; "=="]%string.
Proof. eexists. split; [vm_compute; reflexivity|]. split; [|split]; vm_compute; reflexivity. Qed.

(** Without the condition that the sub-spines of a staff stand side by side, two
    notes that sound at once get into one voice: after an exchange of spines, the
    sub-spines of the first staff have a spine of the other staff between them. *)
Theorem C94_refuted : exists file infos fin lines out l x y,
  accepted file /\ analyzeSpines file = Some (infos, fin) /\
  map (fun l => (map i_text (il_toks l), map i_track (il_toks l))) lines =
    combine (map tokens file) (map (map (fun lab => N.to_nat (label_track lab))) infos) /\
  map il_text lines = file /\
  layerTokens [1; 2] lines = Some out /\
  In l lines /\ nth_error (il_toks l) 0 = Some x /\ nth_error (il_toks l) 2 = Some y /\
  i_text x = S_ "4c" /\ i_text y = S_ "4e" /\ i_start x = i_start y /\
  In x (reals (layer out 0 0)) /\ In y (reals (layer out 0 0)).
Proof.
  exists [S_ "**kern	**kern"; S_ "*^	*"; S_ "*	*x	*x"; S_ "4c	4d	4e"; S_ "*-	*-	*-"].
  eexists. eexists.
  exists [ mkIL (S_ "**kern	**kern") [tk (S_ "**kern") 1 (-1) 0 0; tk (S_ "**kern") 2 (-1) 0 0];
           mkIL (S_ "*^	*") [tk (S_ "*^") 1 (-1) 0 0; tk (S_ "*") 2 (-1) 0 0];
           mkIL (S_ "*	*x	*x") [tk (S_ "*") 1 (-1) 0 0; tk (S_ "*x") 1 (-1) 0 0; tk (S_ "*x") 2 (-1) 0 0];
           mkIL (S_ "4c	4d	4e") [tk (S_ "4c") 1 1 0 0; tk (S_ "4d") 2 1 0 0; tk (S_ "4e") 1 1 0 0];
           mkIL (S_ "*-	*-	*-") [tk (S_ "*-") 1 (-1) 1 1; tk (S_ "*-") 2 (-1) 1 1; tk (S_ "*-") 1 (-1) 1 1] ]%Q.
  eexists. exists (mkIL (S_ "4c	4d	4e") [tk (S_ "4c") 1 1 0 0; tk (S_ "4d") 2 1 0 0; tk (S_ "4e") 1 1 0 0])%Q.
  exists (tk (S_ "4c") 1 1 0 0)%Q, (tk (S_ "4e") 1 1 0 0)%Q.
  split; [apply accepted_check; vm_compute; reflexivity|].
  split; [vm_compute; reflexivity|]. split; [vm_compute; reflexivity|]. split; [reflexivity|].
  split; [vm_compute; reflexivity|]. split; [do 3 right; left; reflexivity|].
  do 5 (split; [reflexivity|]). split; vm_compute; tauto.
Qed.
Print Assumptions C94_refuted.

(** C95.  A gap in a voice between the end of a note and a later token is filled:
    right before that token stand rests without gap or overlap, from the offset
    at which the note ends up to that of the token. *)
Theorem C95_filled : forall staves lines out s k l1 a mid b l2,
  layerTokens staves lines = Some out -> layer out s k = l1 ++ Real a :: mid ++ Real b :: l2 ->
  tok_nonnull_data (i_text a) = true ->
  (forall t, In (Real t) mid -> tok_nonnull_data (i_text t) = false) ->
  (0 < i_start b)%Q -> (tok_end a < i_start b)%Q ->
  exists mid0 rests, mid = mid0 ++ rests /\ tiles (i_bar b - (i_start b - tok_end a))%Q (i_bar b) rests.
Proof.
  intros staves lines out s k l1 a mid b l2 H E Sa F Pb G.
  destruct (built_filled _ (layerTokens_built _ _ _ H s k) _ _ _ _ _ E Sa) as (mid0 & rests & E1 & T & _); try assumption.
  - apply Forall_forall. intros x I. destruct x as [t|d o]; cbn; [|auto]. rewrite (F t I). discriminate.
  - exists mid0, rests. split; assumption.
Qed.
Print Assumptions C95_filled.

(** If the tokens of the voice between the two (comments, interpretations, null
    tokens) are not later than the end of the note, there is no other rest, and
    none at all if there is no gap. *)
Theorem C95_once_partial : forall staves lines out s k l1 a mid b l2,
  layerTokens staves lines = Some out -> layer out s k = l1 ++ Real a :: mid ++ Real b :: l2 ->
  tok_nonnull_data (i_text a) = true ->
  (forall t, In (Real t) mid -> tok_nonnull_data (i_text t) = false /\ (i_start t <= tok_end a)%Q) ->
  (0 < i_start b)%Q ->
  exists rests, mid = map Real (reals mid) ++ rests /\
    ((tok_end a < i_start b)%Q -> tiles (i_bar b - (i_start b - tok_end a))%Q (i_bar b) rests) /\
    ((i_start b <= tok_end a)%Q -> rests = []).
Proof.
  intros staves lines out s k l1 a mid b l2 H E Sa F Pb.
  pose proof (layerTokens_built _ _ _ H s k) as B. rewrite E in B.
  assert (F' : Forall (fun x => ~ sounding x) mid).
  { apply Forall_forall. intros x I. destruct x as [t|d o]; cbn; [|auto]. rewrite (proj1 (F t I)). discriminate. }
  destruct (Qlt_le_dec (tok_end a) (i_start b)) as [G|G].
  - destruct (built_filled _ B _ _ _ _ _ eq_refl Sa F' Pb G) as (mid0 & rests & -> & T & B0).
    exists rests. apply Forall_app in F'. destruct F' as [F0 _].
    pose proof (built_once _ B0 l1 a mid0 eq_refl Sa F0 (fun t I => proj2 (F t (in_or_app _ _ _ (or_introl I))))) as O.
    assert (R : reals rests = []).
    { clear -T. revert T. generalize (i_bar b - (i_start b - tok_end a))%Q. induction rests as [|[t|d o] rests IH]; intros q T; [reflexivity|destruct T|].
      destruct T as (_ & _ & T). cbn. eapply IH. exact T. }
    rewrite reals_app, R, app_nil_r, <- O. split; [reflexivity|]. split; [intros _; exact T|].
    intros X. exfalso. apply (Qlt_not_le _ _ G X).
  - exists []. rewrite app_nil_r.
    assert (B' : built (l1 ++ Real a :: mid ++ [Real b])).
    { assert (X : built ((l1 ++ Real a :: mid) ++ [Real b])).
      { apply (built_prefix _ B (l1 ++ Real a :: mid) b l2). rewrite <- app_assoc. reflexivity. }
      rewrite <- app_assoc in X. exact X. }
    split; [|split; [intros X; exfalso; apply (Qlt_not_le _ _ X G)|reflexivity]].
    destruct (tok_nonnull_data (i_text b)) eqn:Sb.
    + destruct (built_split _ B' (l1 ++ Real a :: mid) b [] ltac:(rewrite <- app_assoc; reflexivity)) as (l0 & B0 & E0).
      symmetry in E0.
      destruct (app_split _ _ _ _ _ E0 (reals_nil_no_real _ _ (gap_fill_reals l0 b))) as (mid0 & -> & ->).
      apply Forall_app in F'. destruct F' as [F0 _].
      assert (Gf : gap_fill (l1 ++ Real a :: mid0) b = []).
      { apply gap_fill_none with a; [apply last_data_at; assumption|exact G]. }
      rewrite Gf, app_nil_r in *.
      exact (built_once _ B0 l1 a mid0 eq_refl Sa F0 (fun t I => proj2 (F t I))).
    + assert (M : mid ++ [Real b] = map Real (reals (mid ++ [Real b]))).
      { apply (built_once _ B' l1 a _ eq_refl Sa).
        - apply Forall_app. split; [exact F'|]. repeat constructor. cbn. rewrite Sb. discriminate.
        - intros t I. apply in_app_or in I. destruct I as [I|[I|[]]]; [exact (proj2 (F t I))|injection I as <-; exact G]. }
      rewrite reals_app, map_app in M. cbn in M. apply app_inj_tail in M. exact (proj1 M).
Qed.
Print Assumptions C95_once_partial.

(** The lower voice sounds on the first and third quarter only. *)
Definition ex95 (again : bool) : list iline :=
  ([ mkIL (S_ "*^") [tk (S_ "*^") 1 (-1) 0 0];
     mkIL (S_ "4c	4e") [tk (S_ "4c") 1 1 0 0; tk (S_ "4e") 1 1 0 0];
     mkIL (S_ "*v	*v") [tk (S_ "*v") 1 (-1) 1 1; tk (S_ "*v") 1 (-1) 1 1];
     mkIL (S_ "4d") [tk (S_ "4d") 1 1 1 1];
     mkIL (S_ "*^") [tk (S_ "*^") 1 (-1) 2 2] ] ++
   (if again then [ mkIL (S_ "*clefG2	*clefG2") [tk (S_ "*clefG2") 1 (-1) 2 2; tk (S_ "*clefG2") 1 (-1) 2 2] ] else []) ++
   [ mkIL (S_ "4c	4f") [tk (S_ "4c") 1 1 2 2; tk (S_ "4f") 1 1 2 2];
     mkIL (S_ "==	==") [tk (S_ "==") 1 (-1) 3 3; tk (S_ "==") 1 (-1) 3 3] ])%Q.
Example C95_nonvacuous : exists out l1 a mid b l2,
  layerTokens [1] (ex95 false) = Some out /\ layer out 0 1 = l1 ++ Real a :: mid ++ Real b :: l2 /\
  i_text a = S_ "4e" /\ i_text b = S_ "4f" /\ (tok_end a < i_start b)%Q /\
  (forall t, In (Real t) mid -> tok_nonnull_data (i_text t) = false /\ (i_start t <= tok_end a)%Q) /\
  mid = [Real (tk (S_ "*v") 1 (-1) 1 1); Fake 1 1]%Q.
Proof.
  eexists. exists [], (tk (S_ "4e") 1 1 0 0)%Q, [Real (tk (S_ "*v") 1 (-1) 1 1); Fake 1 1]%Q, (tk (S_ "4f") 1 1 2 2)%Q. eexists.
  split; [vm_compute; reflexivity|]. split; [vm_compute; reflexivity|]. do 2 (split; [reflexivity|]).
  split; [reflexivity|]. split; [|reflexivity].
  intros t [I|[I|[]]]; [injection I as <-|discriminate]. split; [reflexivity|discriminate].
Qed.

(** With a clef change in between, the same gap is filled twice: two rests sound
    at the same time in one voice. *)
Theorem C95_refuted : exists lines out l1 d o m d' o' l2,
  layerTokens [1] lines = Some out /\ layer out 0 1 = l1 ++ Fake d o :: m ++ Fake d' o' :: l2 /\
  (0 < d)%Q /\ (0 < d')%Q /\ (o == o')%Q.
Proof.
  exists (ex95 true). eexists. eexists [_; _]. exists 1%Q, 1%Q, [Real (tk (S_ "*clefG2") 1 (-1) 2 2)]%Q, 1%Q, 1%Q. eexists.
  split; [vm_compute; reflexivity|]. split; [vm_compute; reflexivity|]. repeat split.
Qed.
Print Assumptions C95_refuted.

(** A voice whose first token is not at the start of the measure begins with
    rests from the start of the measure up to there. *)
Theorem C95_start : forall t l,
  starts_with (S_ "=") (i_text t) = false -> (0 <= i_bar t)%Q ->
  exists rests, voiceItems (Real t :: l) = rests ++ Real t :: l /\ tiles 0 (i_bar t) rests.
Proof.
  intros t l E B. unfold voiceItems. rewrite E. destruct (qlt 0 (i_bar t)) eqn:Q.
  - exists (makeFakeRestTokens (i_bar t) 0). split; [reflexivity|]. apply qlt_spec in Q.
    eapply tiles_compat; [reflexivity| |apply makeFake_tiles; exact Q]. ring.
  - exists []. split; [reflexivity|]. cbn. apply Qle_antisym; [exact B|].
    apply Qnot_lt_le. intros X. apply qlt_spec in X. congruence.
Qed.
Print Assumptions C95_start.
Example C95_start_nonvacuous :
  voiceItems [Real (tk (S_ "4f") 1 1 (5#2) (5#2))]%Q =
    [Fake (4#2) 0; Fake (2#4) (4#2); Real (tk (S_ "4f") 1 1 (5#2) (5#2))]%Q.
Proof. vm_compute. reflexivity. Qed.

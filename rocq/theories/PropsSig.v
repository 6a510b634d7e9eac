(** Property theorems C97: key and time signatures of imported measures. *)
From Verif Require Import PyStr PyStrProofs LayoutModel TextModel SpineModel ImportModel ContentModel VoiceModel VoiceProofs SignifierProofs SigModel.
From Verif Require BarModel.
From Coq Require Import QArith Lia.
Local Close Scope Q_scope.

(** The last token of a list that satisfies [P]. *)
Definition is_last (P : str -> bool) (l : list itok) (t : itok) : Prop :=
  exists l1 l2, l = l1 ++ t :: l2 /\ P (i_text t) = true /\ forall u, In u l2 -> P (i_text u) = false.
(** The tokens of a staff on interpretation lines. *)
Definition staff_interps (tr : nat) (lines : list iline) : list itok :=
  filter (fun t => i_track t =? tr) (flat_map (fun l => if isInterpretationLine (il_text l) then il_toks l else []) lines).

Lemma is_last_snoc P l t u : is_last P (l ++ [u]) t <-> (P (i_text u) = true /\ t = u) \/ (P (i_text u) = false /\ is_last P l t).
Proof.
  unfold is_last. split.
  - intros (l1 & l2 & E & Pt & H). apply snoc_split in E. destruct E as [(-> & -> & ->)|(l2' & -> & ->)].
    + left. auto.
    + right. split; [apply H; apply in_or_app; right; left; reflexivity|].
      exists l1, l2'. split; [reflexivity|]. split; [exact Pt|]. intros v V. apply H. apply in_or_app. left. exact V.
  - intros [(Pu & ->)|(Pu & l1 & l2 & -> & Pt & H)].
    + exists l, []. split; [reflexivity|]. split; [exact Pu|]. intros v [].
    + exists l1, (l2 ++ [u]). split; [rewrite <- app_assoc; reflexivity|]. split; [exact Pt|].
      intros v V. apply in_app_or in V. destruct V as [V|[<-|[]]]; [apply H; exact V|exact Pu].
Qed.
Lemma is_last_nil P t : ~ is_last P [] t.
Proof. intros (l1 & l2 & E & _). destruct l1; discriminate. Qed.

(** A key signature is no time signature, and so on. *)
Lemma key_not_time t : isKeySig t = true -> isTimeSignature t = false.
Proof.
  unfold isKeySig, BarModel.isKeySignature. intros H. apply andb_true_iff in H. destruct H as [H _].
  apply starts_iff in H. destruct H as (d & ->). reflexivity.
Qed.
Lemma time_not_mode t : isTimeSignature t = true -> isKeyDesignation t = false.
Proof.
  intros H. destruct t as [|a [|b t]]; [reflexivity| |].
  - destruct a as [[] [] [] [] [] [] [] []]; reflexivity.
  - assert (M : starts_with (S_ "*M") (a :: b :: t) = true)
      by (unfold isTimeSignature in H; destruct (starts_with (S_ "*M") (a :: b :: t)); [reflexivity|discriminate]).
    apply starts_iff in M. destruct M as (d & E). injection E as -> -> ->. reflexivity.
Qed.
Lemma key_not_mode t : isKeySig t = true -> isKeyDesignation t = false.
Proof.
  unfold isKeySig, BarModel.isKeySignature. intros H. apply andb_true_iff in H. destruct H as [H _].
  apply starts_iff in H. destruct H as (d & ->). reflexivity.
Qed.
Lemma met_not_others t : isMensurationSymbol t = true ->
  isTimeSignature t = false /\ isKeySig t = false /\ isKeyDesignation t = false.
Proof.
  unfold isMensurationSymbol. intros H. apply andb_true_iff in H. destruct H as [H _].
  apply starts_iff in H. destruct H as (d & ->). split; [reflexivity|]. split; reflexivity.
Qed.

(** The tokens kept for one staff, over the tokens of that staff. *)
Definition kept (l : list itok) : sigs := fold_left change_tok l no_sigs.
Lemma kept_snoc l t : kept (l ++ [t]) = change_tok (kept l) t.
Proof. unfold kept. rewrite fold_left_app. reflexivity. Qed.

Ltac cases_of t :=
  destruct (isTimeSignature (i_text t)) eqn:ET;
  [ destruct (isMensurationSymbol (i_text t)) eqn:EM;
    [ apply met_not_others in EM; destruct EM as (? & _ & _); congruence |
      destruct (isKeySig (i_text t)) eqn:EK; [apply key_not_time in EK; congruence|
      pose proof (time_not_mode _ ET) as EH; try rewrite EH in *] ]
  | destruct (isKeySig (i_text t)) eqn:EK;
    [ destruct (isMensurationSymbol (i_text t)) eqn:EM;
      [ apply met_not_others in EM; destruct EM as (_ & ? & _); congruence |
        pose proof (key_not_mode _ EK) as EH; try rewrite EH in * ]
    | destruct (isKeyDesignation (i_text t)) eqn:EH;
      [ destruct (isMensurationSymbol (i_text t)) eqn:EM;
        [ apply met_not_others in EM; destruct EM as (_ & _ & ?); congruence | ]
      | destruct (isMensurationSymbol (i_text t)) eqn:EM ] ] ].

Lemma kept_time l t : g_time (kept l) = Some t <-> is_last isTimeSignature l t.
Proof.
  induction l as [|u l IH] using rev_ind; [split; [discriminate|intros H; destruct (is_last_nil _ _ H)]|].
  rewrite kept_snoc, is_last_snoc, <- IH. unfold change_tok. cases_of u; cbn;
    destruct (g_time (kept l)) as [w|] eqn:G; cbn; rewrite ?G; intuition congruence.
Qed.
Lemma kept_key l t : g_key (kept l) = Some t <-> is_last isKeySig l t.
Proof.
  induction l as [|u l IH] using rev_ind; [split; [discriminate|intros H; destruct (is_last_nil _ _ H)]|].
  rewrite kept_snoc, is_last_snoc, <- IH. unfold change_tok. cases_of u; cbn;
    destruct (g_time (kept l)) as [w|] eqn:G; cbn; rewrite ?G, ?EK; intuition congruence.
Qed.
Lemma kept_mode l t : g_mode (kept l) = Some t <-> is_last isKeyDesignation l t.
Proof.
  induction l as [|u l IH] using rev_ind; [split; [discriminate|intros H; destruct (is_last_nil _ _ H)]|].
  rewrite kept_snoc, is_last_snoc, <- IH. unfold change_tok. cases_of u; cbn;
    destruct (g_time (kept l)) as [w|] eqn:G; cbn; rewrite ?G, ?EK; intuition congruence.
Qed.

(** The last meter symbol, if a time signature stands before it. *)
Definition met_after_time (l : list itok) (m : itok) : Prop :=
  exists l1 l2, l = l1 ++ m :: l2 /\ isMensurationSymbol (i_text m) = true /\
    (forall u, In u l2 -> isMensurationSymbol (i_text u) = false) /\
    exists t, In t l1 /\ isTimeSignature (i_text t) = true.
Lemma last_exists P l u : In u l -> P (i_text u) = true -> exists t, is_last P l t.
Proof.
  induction l as [|v l IH] using rev_ind; [intros []|]. intros I Pu.
  destruct (P (i_text v)) eqn:E; [exists v; apply is_last_snoc; left; auto|].
  apply in_app_or in I. destruct I as [I|[<-|[]]]; [|congruence].
  destruct (IH I Pu) as (t & T). exists t. apply is_last_snoc. right. auto.
Qed.
Lemma met_snoc l m u : met_after_time (l ++ [u]) m <->
  (isMensurationSymbol (i_text u) = true /\ m = u /\ exists t, g_time (kept l) = Some t) \/
  (isMensurationSymbol (i_text u) = false /\ met_after_time l m).
Proof.
  unfold met_after_time. split.
  - intros (l1 & l2 & E & Pt & H & w & W & TW). apply snoc_split in E. destruct E as [(-> & -> & ->)|(l2' & -> & ->)].
    + left. split; [exact Pt|]. split; [reflexivity|]. destruct (last_exists _ _ _ W TW) as (t & T). exists t. apply kept_time. exact T.
    + right. split; [apply H; apply in_or_app; right; left; reflexivity|].
      exists l1, l2'. split; [reflexivity|]. split; [exact Pt|]. split; [|eauto]. intros v V. apply H. apply in_or_app. left. exact V.
  - intros [(Pu & -> & t & T)|(Pu & l1 & l2 & -> & Pt & H & w)].
    + exists l, []. split; [reflexivity|]. split; [exact Pu|]. split; [intros v []|].
      apply kept_time in T. destruct T as (a & b & -> & Pt & _). exists t. split; [apply in_or_app; right; left; reflexivity|exact Pt].
    + exists l1, (l2 ++ [u]). split; [rewrite <- app_assoc; reflexivity|]. split; [exact Pt|]. split; [|exact w].
      intros v V. apply in_app_or in V. destruct V as [V|[<-|[]]]; [apply H; exact V|exact Pu].
Qed.
Lemma kept_no_met l : g_time (kept l) = None -> g_met (kept l) = None.
Proof.
  induction l as [|u l IH] using rev_ind; [reflexivity|]. rewrite kept_snoc. unfold change_tok.
  cases_of u; cbn; destruct (g_time (kept l)) as [w|] eqn:G; cbn; rewrite ?G; intros; try discriminate; apply IH; reflexivity.
Qed.
Lemma kept_met l m : g_met (kept l) = Some m <-> met_after_time l m.
Proof.
  induction l as [|u l IH] using rev_ind.
  { split; [discriminate|]. intros (l1 & l2 & E & _). destruct l1; discriminate. }
  rewrite kept_snoc, met_snoc, <- IH. unfold change_tok. cases_of u; cbn;
    destruct (g_time (kept l)) as [w|] eqn:G; cbn; rewrite ?G; cbn; try (intuition congruence).
  - split; [intros E; injection E as ->; left; split; [reflexivity|]; split; [reflexivity|]; eauto|].
    intros [(_ & -> & _)|(? & _)]; [reflexivity|discriminate].
  - split; [intros E; rewrite (kept_no_met _ G) in E; discriminate|]. intros [(_ & _ & ? & ?)|(? & _)]; discriminate.
Qed.

(** Each staff is treated for itself. *)
Lemma changes_staff staves : NoDup staves -> forall toks gs s, s < length staves -> length gs = length staves ->
  nth s (fold_left (change_line_tok staves) toks gs) no_sigs
  = fold_left change_tok (filter (fun t => i_track t =? nth s staves 0) toks) (nth s gs no_sigs).
Proof.
  intros ND toks. induction toks as [|t toks IH]; intros gs s L LG; [reflexivity|].
  cbn [fold_left filter]. unfold change_line_tok at 2.
  destruct (staffIndex staves (i_track t)) as [k|] eqn:E.
  - pose proof (staffIndex_some _ _ _ ND E) as E'.
    assert (LK : k < length staves) by (apply nth_error_Some; congruence).
    rewrite IH; [|exact L|rewrite upd_nth_length; exact LG].
    destruct (i_track t =? nth s staves 0) eqn:Q.
    + apply Nat.eqb_eq in Q.
      assert (k = s).
      { apply (NoDup_nth staves 0); [exact ND|exact LK|exact L|]. rewrite <- Q. apply nth_error_nth. exact E'. }
      subst k. rewrite nth_upd_same by lia. reflexivity.
    + apply Nat.eqb_neq in Q. rewrite nth_upd_other; [reflexivity|]. intros ->. apply Q.
      symmetry. apply nth_error_nth. exact E'.
  - destruct (i_track t =? nth s staves 0) eqn:Q; [|apply IH; assumption].
    exfalso. apply Nat.eqb_eq in Q. apply (staffIndex_none _ _ ND E). rewrite Q. apply nth_In. exact L.
Qed.
Lemma nth_no_sigs {A} (l : list A) s : nth s (map (fun _ => no_sigs) l) no_sigs = no_sigs.
Proof. revert s. induction l as [|a l IH]; intros [|s]; cbn; auto. Qed.

(** What a staff has in force for a measure: the last time signature with its
    meter symbol, and the last key signature with its mode. *)
Definition opt_is {A} (o : option A) (P : A -> Prop) : Prop := forall x, o = Some x <-> P x.

(** In a measure that does not begin at time 0, a staff gets the last time
    signature written in it on that staff, at its own time, with the last meter
    symbol that follows a time signature, and the last key signature, at its own
    time, with the last key designation; and nothing else.  "Partial" because
    only the last signature of each kind is put in, and because the positions of
    the clefs are not modelled. *)
Theorem C97_changes_partial : forall staves file start lines s, NoDup staves -> s < length staves -> (0 < start)%Q ->
  let l := staff_interps (nth s staves 0) lines in
  (forall off t met, In (TimeSig off t met) (measureSigs staves file start lines s) <->
     is_last isTimeSignature l t /\ off = i_bar t /\ opt_is met (met_after_time l)) /\
  (forall off k mode, In (KeySig off k mode) (measureSigs staves file start lines s) <->
     is_last isKeySig l k /\ off = i_bar k /\ opt_is mode (is_last isKeyDesignation l) /\
     (mode = None -> exists ks, BarModel.m21KeySignature (i_text k) = Some ks)).
Proof.
  intros staves file start lines s ND L ST l. unfold measureSigs.
  destruct (Qle_bool start 0) eqn:Q; [apply Qle_bool_iff in Q; exfalso; exact (Qlt_not_le _ _ ST Q)|].
  unfold changes. rewrite changes_staff; [|exact ND|exact L|rewrite map_length; reflexivity].
  rewrite nth_no_sigs. fold (staff_interps (nth s staves 0) lines). fold l. fold (kept l).
  assert (OM : forall met, opt_is met (met_after_time l) <-> met = g_met (kept l)).
  { intros met. split.
    - intros H. destruct met as [m|].
      + symmetry. apply kept_met. apply H. reflexivity.
      + destruct (g_met (kept l)) as [m|] eqn:E; [|reflexivity]. apply kept_met in E. apply H in E. discriminate.
    - intros -> x. apply kept_met. }
  assert (OK : forall met, opt_is met (is_last isKeyDesignation l) <-> met = g_mode (kept l)).
  { intros met. split.
    - intros H. destruct met as [m|].
      + symmetry. apply kept_mode. apply H. reflexivity.
      + destruct (g_mode (kept l)) as [m|] eqn:E; [|reflexivity]. apply kept_mode in E. apply H in E. discriminate.
    - intros -> x. apply kept_mode. }
  unfold inserted. split; intros off t met.
  - rewrite OM, <- kept_time, in_app_iff. split.
    + intros [I|I].
      * destruct (g_time (kept l)); [|destruct I]. destruct I as [I|[]]. injection I as <- <- <-. auto.
      * destruct (g_key (kept l)); [|destruct I]. destruct (key_readable _ _); [|destruct I]. destruct I as [I|[]]. discriminate.
    + intros (-> & -> & ->). left. left. reflexivity.
  - rewrite OK, <- kept_key, in_app_iff. split.
    + intros [I|I].
      * destruct (g_time (kept l)); [|destruct I]. destruct I as [I|[]]. discriminate.
      * destruct (g_key (kept l)) as [k|]; [|destruct I]. destruct (key_readable _ _) eqn:R; [|destruct I].
        destruct I as [I|[]]. injection I as <- <- <-. do 3 (split; [reflexivity|]).
        intros E. unfold key_readable in R. rewrite E in R. destruct (BarModel.m21KeySignature _); [eauto|discriminate].
    + intros (-> & -> & -> & R). right.
      replace (key_readable t (g_mode (kept l))) with true; [left; reflexivity|].
      unfold key_readable. destruct (g_mode (kept l)); [reflexivity|]. destruct R as (ks & ->); reflexivity.
Qed.
Print Assumptions C97_changes_partial.

Definition tk97 (s : string) (tr : nat) (st br : Q) : itok := mkI (S_ s) tr false 0 st br.

Definition ln97 (t : string) (st br : Q) : iline := mkIL (S_ t) [tk97 t 1 st br].
(** A measure of 4/4 in which the key changes at once and the meter in the middle. *)
Definition ex97 : list iline :=
  [ ln97 "=2" 4 0; ln97 "*k[f#]" 4 0; ln97 "*G:" 4 0; ln97 "2c" 4 0; ln97 "*M3/4" 6 2; ln97 "*met(C)" 6 2; ln97 "2d" 6 2; ln97 "=3" 8 4 ]%Q.
Example C97_changes_nonvacuous : forall file, measureSigs [1] file 4 ex97 0 =
  [TimeSig 2 (tk97 "*M3/4" 1 6 2) (Some (tk97 "*met(C)" 1 6 2)); KeySig 0 (tk97 "*k[f#]" 1 4 0) (Some (tk97 "*G:" 1 4 0))]%Q.
Proof. reflexivity. Qed.

(** A time signature is lost when another one follows in the same measure. *)
Theorem C97_twice_refuted : exists t l1 l2, forall file,
  i_text t = S_ "*M2/4" /\ ~ is_last isTimeSignature (staff_interps 1 (l1 ++ mkIL (i_text t) [t] :: l2)) t /\
  forall off met, ~ In (TimeSig off t met) (measureSigs [1] file 4 (l1 ++ mkIL (i_text t) [t] :: l2) 0).
Proof.
  exists (tk97 "*M2/4" 1 4 0)%Q, [ln97 "=2" 4 0]%Q, [ln97 "2c" 4 0; ln97 "*M3/4" 6 2; ln97 "2.d" 6 2; ln97 "=3" 9 5]%Q.
  intros file. split; [reflexivity|].
  assert (N : forall off met, ~ In (TimeSig off (tk97 "*M2/4" 1 4 0)%Q met)
     (measureSigs [1] file 4 ([ln97 "=2" 4 0] ++ mkIL (i_text (tk97 "*M2/4" 1 4 0)) [tk97 "*M2/4" 1 4 0] :: [ln97 "2c" 4 0; ln97 "*M3/4" 6 2; ln97 "2.d" 6 2; ln97 "=3" 9 5])%Q 0)).
  { intros off met I. cbn in I. destruct I as [I|[]]. discriminate. }
  split; [|exact N].
  intros (a & b & E & _ & H).
  assert (B : forall u, In u b -> In u [tk97 "*M3/4" 1 6 2]%Q -> False).
  { intros u U [<-|[]]. specialize (H _ U). discriminate. }
  destruct a as [|x [|y a]].
  - apply (f_equal (@tl _)) in E. cbn in E. subst b. exact (B _ (or_introl eq_refl) (or_introl eq_refl)).
  - apply (f_equal (fun l => map i_text (tl l))) in E. cbn in E. discriminate.
  - apply (f_equal (@length _)) in E. cbn in E. rewrite app_length in E. cbn in E. lia.
Qed.
Print Assumptions C97_twice_refuted.

(** The first measure. *)
Definition kept1 (l : list itok) : sigs := fold_left first_tok l no_sigs.
Lemma kept1_snoc l t : kept1 (l ++ [t]) = first_tok (kept1 l) t.
Proof. unfold kept1. rewrite fold_left_app. reflexivity. Qed.
Lemma kept1_spec l t :
  (g_time (kept1 l) = Some t <-> is_last isTimeSignature l t) /\
  (g_key (kept1 l) = Some t <-> is_last isKeySig l t) /\
  (g_mode (kept1 l) = Some t <-> is_last isKeyDesignation l t) /\
  (g_met (kept1 l) = Some t <-> is_last isMensurationSymbol l t).
Proof.
  induction l as [|u l IH] using rev_ind.
  { split; [|split; [|split]]; (split; [discriminate|intros H; destruct (is_last_nil _ _ H)]). }
  destruct IH as (I1 & I2 & I3 & I4).
  rewrite kept1_snoc, !is_last_snoc, <- I1, <- I2, <- I3, <- I4. clear I1 I2 I3 I4. unfold first_tok. cases_of u; cbn;
    rewrite ?ET, ?EK, ?EH, ?EM; cbn; (split; [|split; [|split]]); intuition congruence.
Qed.
Lemma opt_is_eq {A} (o g : option A) P : (forall x, g = Some x <-> P x) -> opt_is o P <-> o = g.
Proof.
  intros G. unfold opt_is. split; [|intros ->; exact G]. intros H. destruct o as [x|].
  - symmetry. apply G, H. reflexivity.
  - destruct g as [x|]; [|reflexivity]. destruct (H x) as [_ H']. discriminate H'. apply G. reflexivity.
Qed.

(** The lines above the first line of data. *)
Fixpoint header (lines : list iline) : list iline :=
  match lines with [] => [] | l :: ls => if isDataLine (il_text l) then [] else l :: header ls end.
(** The tokens of a spine on these lines, where the spine is not split: at most
    one token per line. *)
Definition spine_toks (tr : nat) (lines : list iline) : list itok :=
  flat_map (fun l => if hasSpines (il_text l) then filter (fun t => i_track t =? tr) (il_toks l) else []) lines.
Lemma first_toks_header tr file :
  (forall l, In l (header file) -> length (filter (fun t => i_track t =? tr) (il_toks l)) <= 1) ->
  first_toks tr file = spine_toks tr (header file).
Proof.
  induction file as [|l ls IH]; [reflexivity|]. cbn [first_toks header]. destruct (isDataLine (il_text l)); [reflexivity|].
  intros H. unfold spine_toks. cbn [flat_map]. fold (spine_toks tr (header ls)). rewrite IH by (intros x X; apply H; right; exact X).
  f_equal. destruct (hasSpines (il_text l)); [|reflexivity]. specialize (H l (or_introl eq_refl)).
  destruct (filter _ (il_toks l)) as [|a [|b r]]; [reflexivity|reflexivity|cbn in H; lia].
Qed.

(** A measure that begins at time 0 gets at its start the last time signature
    and the last key signature that stand above the first notes, with the last
    meter symbol and the last key designation there, in any order.  "Partial"
    because the later part of the measure is not looked at. *)
Theorem C97_first_partial : forall staves file start lines s, (start <= 0)%Q ->
  (forall l, In l (header file) -> length (filter (fun t => i_track t =? nth s staves 0) (il_toks l)) <= 1) ->
  let l := spine_toks (nth s staves 0) (header file) in
  (forall off t met, In (TimeSig off t met) (measureSigs staves file start lines s) <->
     is_last isTimeSignature l t /\ off = 0%Q /\ opt_is met (is_last isMensurationSymbol l)) /\
  (forall off k mode, In (KeySig off k mode) (measureSigs staves file start lines s) <->
     is_last isKeySig l k /\ off = 0%Q /\ opt_is mode (is_last isKeyDesignation l) /\
     (mode = None -> exists ks, BarModel.m21KeySignature (i_text k) = Some ks)).
Proof.
  intros staves file start lines s ST ONE l. unfold measureSigs.
  apply Qle_bool_iff in ST. rewrite ST. rewrite first_toks_header by exact ONE. fold l. fold (kept1 l).
  pose proof (kept1_spec l) as K.
  unfold inserted. split; intros off t met.
  - rewrite (opt_is_eq met (g_met (kept1 l))) by (intros x; apply K).
    destruct (K t) as (<- & _ & _). rewrite in_app_iff. split.
    + intros [I|I].
      * destruct (g_time (kept1 l)); [|destruct I]. destruct I as [I|[]]. injection I as <- <- <-. auto.
      * destruct (g_key (kept1 l)); [|destruct I]. destruct (key_readable _ _); [|destruct I]. destruct I as [I|[]]. discriminate.
    + intros (-> & -> & ->). left. left. reflexivity.
  - rewrite (opt_is_eq met (g_mode (kept1 l))) by (intros x; apply K).
    destruct (K t) as (_ & <- & _). rewrite in_app_iff. split.
    + intros [I|I].
      * destruct (g_time (kept1 l)); [|destruct I]. destruct I as [I|[]]. discriminate.
      * destruct (g_key (kept1 l)) as [k|]; [|destruct I]. destruct (key_readable _ _) eqn:R; [|destruct I].
        destruct I as [I|[]]. injection I as <- <- <-. do 3 (split; [reflexivity|]).
        intros E. unfold key_readable in R. rewrite E in R. destruct (BarModel.m21KeySignature _); [eauto|discriminate].
    + intros (-> & -> & -> & R). right.
      replace (key_readable t (g_mode (kept1 l))) with true; [left; reflexivity|].
      unfold key_readable. destruct (g_mode (kept1 l)); [reflexivity|]. destruct R as (ks & ->); reflexivity.
Qed.
Print Assumptions C97_first_partial.

(** A file whose meter changes in the middle of the first measure. *)
Definition ex97b : list iline :=
  [ ln97 "**kern" 0 0; ln97 "*k[b-]" 0 0; ln97 "*met(C)" 0 0; ln97 "*M4/4" 0 0; ln97 "2c" 0 0;
    ln97 "*M3/4" 2 2; ln97 "*k[]" 2 2; ln97 "2.d" 2 2; ln97 "=2" 5 5 ]%Q.
Example C97_first_nonvacuous :
  (forall l, In l (header ex97b) -> length (filter (fun t => i_track t =? 1) (il_toks l)) <= 1) /\
  measureSigs [1] ex97b 0 ex97b 0 =
    [TimeSig 0 (tk97 "*M4/4" 1 0 0) (Some (tk97 "*met(C)" 1 0 0)); KeySig 0 (tk97 "*k[b-]" 1 0 0) None]%Q.
Proof.
  split; [|reflexivity]. intros l I. cbn in I. repeat destruct I as [<-|I]; try contradiction; cbn; lia.
Qed.

(** What stands below the first line of data has no effect on the signatures of
    the first measure: a change in the middle of it is lost, and it is not put
    into any other measure, because it is on no line of another measure. *)
Theorem C97_first_refuted : forall staves start s l1 d l2 l2' lines lines',
  (start <= 0)%Q -> isDataLine (il_text d) = true ->
  measureSigs staves (l1 ++ d :: l2) start lines s = measureSigs staves (l1 ++ d :: l2') start lines' s.
Proof.
  intros staves start s l1 d l2 l2' lines lines' ST D. unfold measureSigs. apply Qle_bool_iff in ST. rewrite ST.
  assert (E : forall r, first_toks (nth s staves 0) (l1 ++ d :: r) = first_toks (nth s staves 0) (l1 ++ [d])).
  { intros r. induction l1 as [|x l1 IH]; cbn [app first_toks]; [rewrite D; reflexivity|].
    destruct (isDataLine (il_text x)); [reflexivity|]. rewrite IH. reflexivity. }
  rewrite (E l2), (E l2'). reflexivity.
Qed.
Print Assumptions C97_first_refuted.
Example C97_first_refuted_nonvacuous : exists l1 d l2 t,
  ex97b = l1 ++ d :: l2 /\ isDataLine (il_text d) = true /\ In t (staff_interps 1 l2) /\ isTimeSignature (i_text t) = true.
Proof.
  exists (firstn 4 ex97b), (ln97 "2c" 0 0)%Q, (skipn 5 ex97b), (tk97 "*M3/4" 1 2 2)%Q.
  split; [reflexivity|]. split; [reflexivity|]. split; [left; reflexivity|reflexivity].
Qed.

(** More lemmas about the exporter's measures: labels, comments, lines before
    other lines, and histories of additions. *)
From Verif Require Import MeasureModel PyStrProofs MeasureProofs.
From Coq Require Import QArith Sorting.Sorted Permutation Lia.
Local Close Scope Q_scope.

Lemma start_sorted l s : StronglySorted tsle l -> (forall x, In x l -> (sl_ts s <= sl_ts x)%Q) -> StronglySorted tsle (insert_at 0 s l).
Proof. intros So F. unfold insert_at. cbn. constructor; [exact So|]. apply Forall_forall. exact F. Qed.

(** When a label is welcome: all lines are earlier, or none is, or there is such a
    label line already. *)
Definition label_fits (ty : slicetype) (ts : Q) (l : list slice) : Prop :=
  (forall s, In s l -> (sl_ts s < ts)%Q) \/ (forall s, In s l -> (ts <= sl_ts s)%Q)
  \/ (exists s, In s l /\ sl_type s = ty /\ (sl_ts s == ts)%Q).

Lemma label_scan_some ty ts : forall l, (exists s, In s l /\ sl_type s = ty /\ (sl_ts s == ts)%Q) ->
  exists i, label_scan ty ts l = Some (Reuse i).
Proof.
  induction l as [|x l IH]; intros (s & I & T & Q); [destruct I|]. cbn.
  destruct (Qeq_bool (sl_ts x) ts && is_type ty x) eqn:E; [eauto|].
  destruct I as [->|I].
  - apply qeq_iff in Q. apply is_type_eq in T. rewrite Q, T in E. discriminate.
  - destruct IH as (i & X); [eauto|]. rewrite X. cbn. eauto.
Qed.
Lemma label_scan_insert ty ts : forall l k, label_scan ty ts l <> Some (Insert k).
Proof.
  induction l as [|x l IH]; intros k; cbn; [discriminate|].
  destruct (Qeq_bool (sl_ts x) ts && is_type ty x); [discriminate|]. intros H. apply later_insert in H.
  destruct H as (j & _ & H). exact (IH _ H).
Qed.

Theorem label_order ty ts n p tok l l' : in_time_order l -> label_fits ty ts l ->
  addLabelToken ty ts n p tok l = Some l' -> in_time_order l'.
Proof.
  rewrite !in_time_order_sorted. intros So F H. unfold addLabelToken, label_spot in H.
  eapply put_sorted; [exact So|exact H|]. intros k s K T. cbn in T.
  destruct (past_end ts l) eqn:PE.
  { injection K as <-. apply append_sorted; [exact So|]. intros x I. rewrite T. apply Qlt_le_weak. eapply past_end_all; eassumption. }
  destruct (label_scan ty ts l) as [o|] eqn:LS.
  - subst o. destruct (label_scan_insert _ _ _ _ LS).
  - injection K as <-. apply start_sorted; [exact So|]. intros x I. rewrite T. destruct F as [F|[F|F]].
    + exfalso. destruct (past_end_false _ _ PE) as (a & z & -> & L). apply (Qle_not_lt _ _ L). apply F.
      apply in_or_app. right. left. reflexivity.
    + auto.
    + apply label_scan_some in F. destruct F as (i & F). congruence.
Qed.

Lemma global_scan_spec ty tok ts : forall l i,
  match global_scan ty tok ts i l with
  | Some (Some j) => exists a s b, l = a ++ s :: b /\ j = i + length a /\ (ts <= sl_ts s)%Q /\ forall x, In x a -> (sl_ts x < ts)%Q
  | Some None => exists s, In s l /\ (sl_ts s == ts)%Q /\ sl_type s = ty /\ token_at (Voice 0 0 0) s = Some tok
  | None => forall x, In x l -> (sl_ts x < ts)%Q
  end.
Proof.
  induction l as [|s l IH]; intros i; cbn; [intros ? []|].
  destruct (Qeq_bool (sl_ts s) ts) eqn:E.
  - qb. destruct (is_type ty s && has_text tok s) eqn:Y.
    + qb. exists s. split; [left; reflexivity|]. split; [exact E|]. split; [apply is_type_eq; assumption|].
      unfold has_text in H0. destruct (token_at (Voice 0 0 0) s) as [t|]; [|discriminate].
      apply str_eqb_eq in H0. subst. reflexivity.
    + exists [], s, l. cbn. rewrite Nat.add_0_r. split; [reflexivity|]. split; [reflexivity|].
      split; [rewrite E; apply Qle_refl|intros ? []].
  - destruct (qlt ts (sl_ts s)) eqn:L.
    + qb. exists [], s, l. cbn. rewrite Nat.add_0_r. split; [reflexivity|]. split; [reflexivity|].
      split; [apply Qlt_le_weak; exact L|intros ? []].
    + qb. assert (L2 : (sl_ts s < ts)%Q) by (apply q_lt_of_le_ne; assumption).
      specialize (IH (S i)). destruct (global_scan ty tok ts (S i) l) as [[j|]|].
      * destruct IH as (a & x & b & -> & -> & R & F). exists (s :: a), x, b. cbn. split; [reflexivity|]. split; [lia|].
        split; [exact R|]. intros y [<-|J]; auto.
      * destruct IH as (x & J & R). exists x. split; [right; exact J|exact R].
      * intros x [<-|J]; auto.
Qed.

Theorem global_order ty tok ts l : in_time_order l -> in_time_order (addGlobal ty tok ts l).
Proof.
  rewrite !in_time_order_sorted. intros So. unfold addGlobal.
  destruct (past_end ts l) eqn:PE.
  { apply sorted_insert. rewrite app_nil_r. split; [exact So|]. split; [|intros ? []].
    intros x I. apply Qlt_le_weak. eapply past_end_all; eassumption. }
  pose proof (global_scan_spec ty tok ts l 0) as G.
  destruct (global_scan ty tok ts 0 l) as [[j|]|]; [|exact So|exact So].
  destruct G as (a & s & b & -> & -> & L & F). cbn [plus]. rewrite insert_at_app. apply sorted_insert.
  split; [exact So|]. split; [intros x I; apply Qlt_le_weak; auto|].
  intros x [<-|I]; [exact L|]. apply sorted_app in So. destruct So as (_ & S2 & _). inversion S2 as [|? ? _ F2]; subst.
  rewrite Forall_forall in F2. eapply Qle_trans; [exact L|]. apply F2. exact I.
Qed.

(** A global comment or reference that is added is there, at its time, and nothing
    else changes. *)
Theorem global_there ty tok ts l : in_time_order l ->
  (exists s, In s (addGlobal ty tok ts l) /\ (sl_ts s == ts)%Q /\ sl_type s = ty /\ token_at (Voice 0 0 0) s = Some tok)
  /\ (addGlobal ty tok ts l = l \/ exists a s b, l = a ++ b /\ addGlobal ty tok ts l = a ++ s :: b).
Proof.
  rewrite in_time_order_sorted. intros So. unfold addGlobal.
  assert (G0 : (sl_ts (global_line ty tok ts) == ts)%Q /\ sl_type (global_line ty tok ts) = ty
               /\ token_at (Voice 0 0 0) (global_line ty tok ts) = Some tok) by (repeat split).
  destruct (past_end ts l) eqn:PE.
  { split; [exists (global_line ty tok ts); split; [apply in_or_app; right; left; reflexivity|exact G0]|].
    right. exists l, (global_line ty tok ts), []. rewrite app_nil_r. auto. }
  pose proof (global_scan_spec ty tok ts l 0) as G.
  destruct (global_scan ty tok ts 0 l) as [[j|]|].
  - destruct G as (a & s & b & E & -> & L & F). cbn [plus]. split.
    + rewrite E, insert_at_app. exists (global_line ty tok ts). split; [apply in_or_app; right; left; reflexivity|exact G0].
    + right. exists a, (global_line ty tok ts), (s :: b). rewrite E, insert_at_app. auto.
  - split; [exact G|left; reflexivity].
  - exfalso. destruct (past_end_false _ _ PE) as (a & z & E & L). apply (Qle_not_lt _ _ L). apply G.
    rewrite E. apply in_or_app. right. left. reflexivity.
Qed.

(** ** Lines before other lines *)

Lemma insert_same l i s n : StronglySorted tsle l -> nth_error l i = Some s -> sl_ts n = sl_ts s ->
  StronglySorted tsle (insert_at i n l).
Proof.
  intros So N T. apply nth_error_split in N. destruct N as (a & b & -> & <-). rewrite insert_at_app.
  apply sorted_insert. rewrite T. apply sorted_insert in So. destruct So as (S0 & A & B).
  split; [apply sorted_insert; auto|]. split; [exact A|]. intros x [<-|I]; [apply Qle_refl|auto].
Qed.

Theorem before_order mend ty null assoc p tok l l' : in_time_order l ->
  (assoc = None -> forall s, In s l -> (sl_ts s <= mend)%Q) ->
  addBefore mend ty null assoc p tok l = Some l' -> in_time_order l'.
Proof.
  rewrite !in_time_order_sorted. intros So F H. unfold addBefore in H.
  destruct l as [|first rest] eqn:EL; [injection H as <-; exact So|]. rewrite <- EL in *. clear EL rest.
  set (i := match assoc with Some i => i | None => length l end) in *.
  set (o := match prev_slice i l with
            | Some (k, s) => if is_type ty s && free_at null p s then Reuse k else Insert i
            | None => Insert i end) in *.
  assert (O : forall k, o = Insert k -> k = i).
  { intros k E. unfold o in E. destruct (prev_slice i l) as [(k', s)|]; [|congruence].
    destruct (is_type ty s && free_at null p s); congruence. }
  destruct (is_none assoc && slicetype_eqb ty TupletDisplay).
  { destruct assoc; destruct (nth_error l i); injection H as <-; exact So. }
  destruct (nth_error l i) as [s|] eqn:N.
  - assert (X : put o (new_slice (sl_ts s) ty (sl_parts s)) p tok l = Some l') by (destruct assoc; exact H).
    eapply put_sorted; [exact So|exact X|]. intros k n K T. apply O in K. subst k.
    eapply insert_same; [exact So|exact N|exact T].
  - destruct assoc as [j|]; [injection H as <-; exact So|].
    eapply put_sorted; [exact So|exact H|]. intros k n K T. apply O in K. subst k.
    apply append_sorted; [exact So|]. intros x I. rewrite T. cbn. auto.
Qed.

Lemma nontext_run_le p : forall r, nontext_run p r <= length r.
Proof. induction r as [|s r IH]; cbn; [lia|]. destruct (is_type Layouts s && negb (is_text_layout p s)); lia. Qed.

Theorem text_before_order mend assoc p tok l l' : in_time_order l ->
  (assoc = None -> forall s, In s l -> (sl_ts s <= mend)%Q) ->
  addTextBefore mend assoc p tok l = Some l' -> in_time_order l'.
Proof.
  rewrite !in_time_order_sorted. intros So F H. unfold addTextBefore in H.
  destruct l as [|first rest] eqn:EL; [injection H as <-; exact So|]. rewrite <- EL in *. clear EL rest.
  set (i := match assoc with Some i => i | None => length l end) in *.
  set (k := i - nontext_run p (rev (firstn i l))) in *.
  assert (G : (assoc <> None -> nth_error l i <> None) ->
    put (Insert k) (match nth_error l k with
                    | Some s => new_slice (sl_ts s) Layouts (sl_parts s)
                    | None => new_slice mend Layouts (sl_parts (last l first))
                    end) p tok l = Some l' -> StronglySorted tsle l').
  { intros A X. eapply put_sorted; [exact So|exact X|]. intros k0 n K T. injection K as <-.
    destruct (nth_error l k) as [s|] eqn:N.
    - eapply insert_same; [exact So|exact N|exact T].
    - assert (L : length l <= k) by (apply nth_error_None; exact N).
      assert (k <= i) by (unfold k; lia).
      destruct assoc as [j|].
      + exfalso. apply A; [discriminate|]. apply nth_error_None. lia.
      + assert (k = length l) as -> by (unfold i in *; lia). apply append_sorted; [exact So|].
        intros x I. rewrite T. cbn. auto. }
  destruct assoc as [j|]; [|apply G; [congruence|exact H]].
  destruct (nth_error l i); [|injection H as <-; exact So]. apply G; [discriminate|exact H].
Qed.

Lemma ottava_loop_order p owner : forall toks i l l', StronglySorted tsle l -> 
  (exists s, nth_error l i = Some s /\ sl_ts s = sl_ts owner) ->
  ottava_loop i owner p toks l = Some l' -> StronglySorted tsle l'.
Proof.
  induction toks as [|t toks IH]; intros i l l' So (s & N & T) H; [injection H as <-; exact So|].
  cbn in H. destruct (add_token p t _) as [n|] eqn:A; [|discriminate].
  apply add_token_spec in A. destruct A as (AT & _). cbn in AT.
  eapply (IH i); [|eexists; split; [apply insert_nth_new|exact AT]|exact H].
  - eapply insert_same; [exact So|exact N|]. rewrite AT, T. reflexivity.
  - assert (i < length l) by (apply nth_error_Some; congruence). lia.
Qed.

Lemma ottava_end_order mend p : forall toks l l', StronglySorted tsle l -> (forall s, In s l -> (sl_ts s <= mend)%Q) ->
  ottava_end mend p toks l = Some l' -> StronglySorted tsle l'.
Proof.
  induction toks as [|t toks IH]; intros l l' So F H; [injection H as <-; exact So|].
  cbn in H. destruct (rev l) as [|z r]; [discriminate|]. destruct (add_token p t _) as [n|] eqn:A; [|discriminate].
  apply add_token_spec in A. destruct A as (AT & _). cbn in AT.
  eapply IH; [|intros s I|exact H].
  - apply append_sorted; [exact So|]. intros x I. rewrite AT. auto.
  - revert I. rewrite <- (app_nil_r l) at 2. rewrite insert_at_app. intros I. apply in_app_or in I.
    destruct I as [I|[<-|[]]]; [auto|]. rewrite AT. apply Qle_refl.
Qed.

Theorem ottava_order mend assoc part staff toks l l' : in_time_order l ->
  (assoc = None -> forall s, In s l -> (sl_ts s <= mend)%Q) ->
  addOttavaOrPedalTokensBefore mend assoc part staff toks l = Some l' -> in_time_order l'.
Proof.
  rewrite !in_time_order_sorted. intros So F H. unfold addOttavaOrPedalTokensBefore in H.
  destruct toks as [|t toks]; [injection H as <-; exact So|].
  destruct assoc as [i|].
  - destruct (nth_error l i) as [owner|] eqn:N; [|injection H as <-; exact So].
    eapply ottava_loop_order; [exact So|eexists; split; [exact N|reflexivity]|exact H].
  - eapply ottava_end_order; [exact So|exact (F eq_refl)|exact H].
Qed.

(** ** Histories *)

(** When one addition to a measure is welcome. *)
Definition fits (mts mend : Q) (a : addition) (l : list slice) : Prop :=
  match a with
  | Data ts _ _ _ => data_fits ts l
  | OfType before _ ts _ _ _ => before = true -> last_earlier ts l (fun s => sl_type s <> Layouts)
  | Grace ts _ _ _ _ => grace_fits ts l
  | Label ty ts _ _ _ => label_fits ty ts l
  | Comment _ _ _ => True
  | EndLayout _ ts => forall s, In s l -> (sl_ts s <= ts)%Q
  | StartLayout _ => forall s, In s l -> (mts <= sl_ts s)%Q
  | Before _ _ assoc _ _ | TextBefore assoc _ _ | OttavasBefore assoc _ _ _ =>
      assoc = None -> forall s, In s l -> (sl_ts s <= mend)%Q
  end.

Theorem add_order mts mend a l l' : in_time_order l -> fits mts mend a l -> add mts mend a l = Some l' -> in_time_order l'.
Proof.
  intros So F H. destruct a; cbn in F, H.
  - apply (data_order _ _ _ _ _ _ So H). exact F.
  - exact (type_order _ _ _ _ _ _ _ _ So F H).
  - exact (grace_order _ _ _ _ _ _ _ So F H).
  - exact (label_order _ _ _ _ _ _ _ So F H).
  - injection H as <-. apply global_order. exact So.
  - injection H as <-. apply in_time_order_sorted. apply in_time_order_sorted in So. unfold appendGlobalLayout.
    apply sorted_insert. rewrite app_nil_r. split; [exact So|]. split; [exact F|intros ? []].
  - injection H as <-. apply in_time_order_sorted. apply in_time_order_sorted in So. unfold addGlobalLayoutAtMeasureStart.
    constructor; [exact So|]. apply Forall_forall. exact F.
  - exact (before_order _ _ _ _ _ _ _ _ So F H).
  - exact (text_before_order _ _ _ _ _ _ So F H).
  - exact (ottava_order _ _ _ _ _ _ _ So F H).
Qed.

(** Every addition of a history is welcome when its turn comes. *)
Fixpoint all_fit (mts mend : Q) (h : list addition) (l : list slice) : Prop :=
  match h with
  | [] => True
  | a :: r => fits mts mend a l /\ forall l', add mts mend a l = Some l' -> all_fit mts mend r l'
  end.

Theorem history_order mts mend : forall h l l', in_time_order l -> all_fit mts mend h l -> add_all mts mend h l = Some l' -> in_time_order l'.
Proof.
  induction h as [|a h IH]; intros l l' So F H; cbn in H; [injection H as <-; exact So|].
  destruct F as (F1 & F2). destruct (add mts mend a l) as [m|] eqn:A; [|discriminate].
  eapply IH; [|exact (F2 _ eq_refl)|exact H]. eapply add_order; eassumption.
Qed.

(** Additions in time order: data tokens, tokens of line kinds (not tempos) and
    global lines, each not earlier than the one before. *)
Definition simple_time (a : addition) : option Q :=
  match a with
  | Data ts _ _ _ => Some ts
  | OfType false _ ts _ _ _ => Some ts
  | Comment _ _ ts => Some ts
  | EndLayout _ ts => Some ts
  | _ => None
  end.
Fixpoint rising (from : Q) (h : list addition) : Prop :=
  match h with
  | [] => True
  | a :: r => exists ts, simple_time a = Some ts /\ (from <= ts)%Q /\ rising ts r
  end.

Lemma placed_in ts ty p tok l l' : placed ts ty p tok l l' -> forall s, In s l' -> (sl_ts s == ts)%Q \/ In s l.
Proof.
  intros [(a & s & b & -> & -> & T & _)|(a & s & s' & b & -> & -> & T & T' & _)] x I; apply in_app_or in I.
  - destruct I as [I|[<-|I]]; [right; apply in_or_app; auto|auto|right; apply in_or_app; auto].
  - destruct I as [I|[<-|I]]; [right; apply in_or_app; auto|auto|right; apply in_or_app; right; right; exact I].
Qed.

Theorem rising_order mts mend : forall h from l l', in_time_order l -> (forall s, In s l -> (sl_ts s <= from)%Q) ->
  rising from h -> add_all mts mend h l = Some l' -> in_time_order l'.
Proof.
  induction h as [|a h IH]; intros from l l' So F R H; cbn in H; [injection H as <-; exact So|].
  destruct R as (ts & T & L & R). destruct (add mts mend a l) as [m|] eqn:A; [|discriminate].
  assert (F' : forall s, In s l -> (sl_ts s <= ts)%Q) by (intros s I; eapply Qle_trans; [apply F; exact I|exact L]).
  assert (FT : fits mts mend a l).
  { destruct a as [ts0 ? ? ?|before ? ts0 ? ? ?| | |? ? ts0|? ts0| | | |]; cbn in T; try discriminate.
    - injection T as ->. right. intros a s b -> G _. exfalso. apply (Qle_not_lt (sl_ts s) ts); [|exact G].
      apply F'. apply in_or_app. right. left. reflexivity.
    - destruct before; [discriminate|]. cbn. discriminate.
    - exact I.
    - injection T as ->. exact F'. }
  assert (M : forall s, In s m -> (sl_ts s <= ts)%Q).
  { intros s I. destruct a as [ts0 ? ? ?|before ? ts0 ? ? ?| | |? ? ts0|? ts0| | | |]; cbn in T; try discriminate; cbn in A.
    - injection T as ->. apply data_spot_placed in A. destruct (placed_in _ _ _ _ _ _ A s I) as [Q|J]; [rewrite Q; apply Qle_refl|auto].
    - destruct before; [discriminate|]. injection T as ->. apply type_spot_placed in A.
      destruct (placed_in _ _ _ _ _ _ A s I) as [Q|J]; [rewrite Q; apply Qle_refl|auto].
    - injection T as ->. injection A as <-. unfold addGlobal in I.
      assert (X : s = global_line ty tok ts \/ In s l).
      { destruct (past_end ts l); [apply in_app_or in I; destruct I as [I|[<-|[]]]; auto|].
        destruct (global_scan ty tok ts 0 l) as [[j|]|]; auto. unfold insert_at in I. apply in_app_or in I.
        rewrite <- (firstn_skipn j l). destruct I as [I|[<-|I]]; [right|auto|right]; apply in_or_app; auto. }
      destruct X as [->|X]; [apply Qle_refl|auto].
    - injection T as ->. injection A as <-. unfold appendGlobalLayout in I. apply in_app_or in I.
      destruct I as [I|[<-|[]]]; [auto|apply Qle_refl]. }
  eapply IH; [|exact M|exact R|exact H]. eapply add_order; eassumption.
Qed.

(** ** A layout comment for a line *)

(** The line directly before the owner has the token. *)
Theorem before_line mend ty null i p tok l l' owner :
  nth_error l i = Some owner ->
  (i = 0 -> forall a s, l = a ++ [s] -> sl_type s <> ty) ->
  addBefore mend ty null (Some i) p tok l = Some l' ->
  exists a s b, l' = a ++ s :: owner :: b /\ sl_type s = ty /\ token_at p s = Some tok
    /\ (l = a ++ owner :: b \/ exists s0, l = a ++ s0 :: owner :: b /\ sl_ts s0 = sl_ts s
        /\ (token_at p s0 = None \/ token_at p s0 = Some null) /\ forall q, q <> p -> token_at q s = token_at q s0).
Proof.
  intros N W H. unfold addBefore in H. destruct l as [|first rest] eqn:EL; [destruct i; discriminate|].
  rewrite <- EL in *. clear EL rest. rewrite N in H. cbn [is_none andb] in H.
  assert (Ins : put (Insert i) (new_slice (sl_ts owner) ty (sl_parts owner)) p tok l = Some l' ->
    exists a s b, l' = a ++ s :: owner :: b /\ sl_type s = ty /\ token_at p s = Some tok
    /\ (l = a ++ owner :: b \/ exists s0, l = a ++ s0 :: owner :: b /\ sl_ts s0 = sl_ts s
        /\ (token_at p s0 = None \/ token_at p s0 = Some null) /\ forall q, q <> p -> token_at q s = token_at q s0)).
  { cbn. destruct (add_token p tok _) as [s|] eqn:A; [|discriminate]. intros E. injection E as <-.
    apply add_token_spec in A. destruct A as (_ & AY & AP & _). cbn in AY.
    apply nth_error_split in N. destruct N as (a & b & E & L). exists a, s, b.
    rewrite E, <- L, insert_at_app. auto. }
  destruct (prev_slice i l) as [(k, s)|] eqn:PV; [|exact (Ins H)].
  destruct (is_type ty s && free_at null p s) eqn:FR; [|exact (Ins H)].
  apply andb_true_iff in FR. destruct FR as (TY & FREE). apply is_type_eq in TY.
  destruct i as [|i]; cbn [prev_slice] in PV.
  - destruct (rev l) as [|z r] eqn:RL; [discriminate|]. injection PV as _ ->.
    exfalso. apply (W eq_refl (rev r) s); [|exact TY]. rewrite <- (rev_involutive l), RL. reflexivity.
  - destruct (nth_error l i) as [z|] eqn:NI; [|discriminate]. injection PV as <- ->.
    cbn [put] in H. destruct (change_at_spec _ _ _ _ H) as (a & s1 & s' & b & E & E' & L & A).
    rewrite E in NI. rewrite <- L, nth_error_app2, Nat.sub_diag in NI by lia. injection NI as ->.
    rewrite E in N. rewrite <- L in N. rewrite nth_error_app2 in N by lia.
    replace (Datatypes.S (length a) - length a) with 1 in N by lia. cbn in N.
    destruct b as [|o b]; [discriminate|]. injection N as ->.
    apply add_token_spec in A. destruct A as (AT & AY & AP & AO).
    exists a, s', b. split; [exact E'|]. split; [rewrite AY; exact TY|]. split; [exact AP|].
    right. exists s. split; [exact E|]. split; [symmetry; exact AT|]. split; [|exact AO].
    unfold free_at in FREE. destruct (token_at p s) as [z|]; [right|left; reflexivity].
    destruct p; try discriminate. apply str_eqb_eq in FREE. rewrite FREE. reflexivity.
Qed.

(** ** Octave and pedal marks *)

Definition mark_line (p : place) (ts : Q) (t : str) (s : slice) : Prop :=
  sl_ts s = ts /\ (sl_type s = Pedals \/ sl_type s = Ottavas) /\ token_at p s = Some t.

Lemma ottava_loop_spec p owner : forall toks a b l', ottava_loop (length a) owner p toks (a ++ b) = Some l' ->
  exists lines, l' = a ++ lines ++ b /\ Forall2 (mark_line p (sl_ts owner)) (rev toks) lines.
Proof.
  induction toks as [|t toks IH]; intros a b l' H.
  - injection H as <-. exists []. split; [reflexivity|constructor].
  - cbn in H. destruct (add_token p t _) as [n|] eqn:A; [|discriminate]. rewrite insert_at_app in H.
    destruct (IH _ _ _ H) as (lines & -> & F). apply add_token_spec in A. destruct A as (AT & AY & AP & _). cbn in AT, AY.
    exists (lines ++ [n]). split; [rewrite <- app_assoc; reflexivity|]. cbn [rev]. apply Forall2_app; [exact F|].
    constructor; [|constructor]. split; [exact AT|]. split; [|exact AP]. rewrite AY. unfold pedal_type.
    destruct (_ || _); auto.
Qed.

Lemma ottava_end_spec p mend : forall toks l l', ottava_end mend p toks l = Some l' ->
  exists lines, l' = l ++ lines /\ Forall2 (mark_line p mend) toks lines.
Proof.
  induction toks as [|t toks IH]; intros l l' H.
  - injection H as <-. exists []. rewrite app_nil_r. split; [reflexivity|constructor].
  - cbn in H. destruct (rev l) as [|z r]; [discriminate|]. destruct (add_token p t _) as [n|] eqn:A; [|discriminate].
    rewrite <- (app_nil_r l) in H at 2. rewrite insert_at_app in H.
    destruct (IH _ _ H) as (lines & -> & F). apply add_token_spec in A. destruct A as (AT & AY & AP & _). cbn in AT, AY.
    exists (n :: lines). split; [rewrite <- app_assoc; reflexivity|]. constructor; [|exact F].
    split; [exact AT|]. split; [|exact AP]. rewrite AY. unfold pedal_type. destruct (_ || _); auto.
Qed.

(** ** Emitting *)

Definition valid (s : slice) : Prop := sl_type s <> Invalid.

(** Lines that set the beginning of the music: notes, grace notes, layouts, spine
    manipulators, verse labels. *)
Definition starts_music (s : slice) : Prop :=
  sl_type s = Notes \/ sl_type s = GraceNotes \/ sl_type s = Layouts \/ sl_type s = Manipulators \/ sl_type s = VerseLabels.

Lemma is_trigger_iff s : is_trigger s = true <-> starts_music s.
Proof.
  unfold is_trigger, is_type, starts_music, is_data. destruct (sl_type s); cbn; split; intuition congruence.
Qed.

(** A line with a rehearsal mark. *)
Definition rehearsal (s : slice) : Prop :=
  sl_type s = GlobalLayouts /\ exists t, token_at (Voice 0 0 0) s = Some (S_ "!!LO:REH" ++ t).

Lemma starts_with_app p : forall s, starts_with p s = true <-> exists t, s = p ++ t.
Proof.
  induction p as [|c p IH]; intros s; cbn.
  - split; [intros _; exists s; reflexivity|reflexivity].
  - destruct s as [|d s]; [split; [discriminate|intros (t & E); discriminate]|].
    rewrite andb_true_iff, Ascii.eqb_eq, IH. split.
    + intros (-> & t & ->). exists t. reflexivity.
    + intros (t & E). injection E as -> ->. eauto.
Qed.

Lemma is_rehearsal_iff s : is_rehearsal s = true <-> rehearsal s.
Proof.
  unfold is_rehearsal, rehearsal. rewrite andb_true_iff, is_type_eq.
  destruct (token_at (Voice 0 0 0) s) as [t|].
  - rewrite starts_with_app. split; intros (A & x & B); split; auto; [exists x; rewrite B; reflexivity|].
    injection B as B. exists x. exact B.
  - split; intros (_ & H); [discriminate|destruct H; discriminate].
Qed.

Lemma loop_done bar marks : forall l, first_bar_loop bar marks true l = filter (fun s => negb (is_type Invalid s)) l.
Proof.
  induction l as [|s l IH]; [reflexivity|]. cbn [first_bar_loop filter]. destruct (is_type Invalid s); cbn [negb]; [exact IH|].
  rewrite andb_false_r. cbn. rewrite IH. reflexivity.
Qed.

Definition not_invalid (s : slice) : bool := negb (is_type Invalid s).

Definition kept (s : slice) : bool := not_invalid s && negb (is_rehearsal s).

Lemma loop_pre : forall pre bar marks rest, (forall s, In s pre -> is_trigger s = false) ->
  exists bar' held others, first_bar_loop bar marks false (pre ++ rest) = others ++ first_bar_loop bar' (marks ++ held) false rest
    /\ held = filter (fun s => is_rehearsal s) pre
    /\ match bar with
       | Some b => bar' = Some b /\ others = filter kept pre
       | None => match bar' with
                 | Some b => exists p1 p2, pre = p1 ++ b :: p2 /\ sl_type b = Measures
                     /\ (forall s, In s p1 -> sl_type s <> Measures)
                     /\ others = filter kept (p1 ++ p2)
                 | None => (forall s, In s pre -> sl_type s <> Measures)
                     /\ others = filter kept pre
                 end
       end.
Proof.
  induction pre as [|s pre IH]; intros bar marks rest T.
  - exists bar, [], []. rewrite app_nil_r. cbn. split; [reflexivity|]. split; [reflexivity|].
    destruct bar; [auto|split; [intros ? []|reflexivity]].
  - assert (T' : forall s, In s pre -> is_trigger s = false) by (intros; apply T; right; assumption).
    assert (TS : is_trigger s = false) by (apply T; left; reflexivity).
    cbn [app first_bar_loop filter].
    destruct (is_type Invalid s) eqn:I.
    { assert (R : is_rehearsal s = false).
      { apply is_type_eq in I. unfold is_rehearsal, is_type. rewrite I. reflexivity. }
      assert (K : kept s = false) by (unfold kept, not_invalid; rewrite I; reflexivity).
      destruct (IH bar marks rest T') as (bar' & held & others & E & H & O). exists bar', held, others.
      rewrite R, K. split; [exact E|]. split; [exact H|].
      destruct bar as [b|]; [exact O|]. apply is_type_eq in I. destruct bar' as [b|].
      - destruct O as (p1 & p2 & -> & TB & N & ->). exists (s :: p1), p2. split; [reflexivity|]. split; [exact TB|]. split.
        + intros x [<-|J]; [congruence|auto].
        + cbn [app filter]. rewrite K. reflexivity.
      - destruct O as (N & ->). split; [|reflexivity]. intros x [<-|J]; [congruence|auto]. }
    rewrite TS. cbn [andb negb].
    destruct (is_type Measures s) eqn:M; cbn [andb].
    { assert (R : is_rehearsal s = false).
      { apply is_type_eq in M. unfold is_rehearsal, is_type. rewrite M. reflexivity. }
      assert (K : kept s = true) by (unfold kept, not_invalid; rewrite I, R; reflexivity).
      rewrite R, K. destruct bar as [b|].
      - destruct (IH (Some b) marks rest T') as (bar' & held & others & E & H & O). exists bar', held, (s :: others).
        rewrite E. split; [reflexivity|]. split; [exact H|]. destruct O as (-> & ->). auto.
      - destruct (IH (Some s) marks rest T') as (bar' & held & others & E & H & O). exists bar', held, others.
        split; [exact E|]. split; [exact H|]. destruct O as (-> & ->). exists [], pre. split; [reflexivity|].
        split; [apply is_type_eq; exact M|]. split; [intros ? []|reflexivity]. }
    assert (MN : sl_type s <> Measures) by (intros X; apply is_type_eq in X; congruence).
    destruct (is_rehearsal s) eqn:R.
    { assert (K : kept s = false) by (unfold kept; rewrite R; apply andb_false_r).
      destruct (IH bar (marks ++ [s]) rest T') as (bar' & held & others & E & H & O). exists bar', (s :: held), others.
      rewrite <- app_assoc in E. cbn [app] in E. rewrite K. split; [exact E|]. split; [f_equal; exact H|].
      destruct bar as [b|]; [exact O|]. destruct bar' as [b|].
      - destruct O as (p1 & p2 & -> & TB & N & ->). exists (s :: p1), p2. split; [reflexivity|]. split; [exact TB|]. split.
        + intros x [<-|J]; auto.
        + cbn [app filter]. rewrite K. reflexivity.
      - destruct O as (N & ->). split; [|reflexivity]. intros x [<-|J]; auto. }
    assert (K : kept s = true) by (unfold kept, not_invalid; rewrite I, R; reflexivity).
    destruct (IH bar marks rest T') as (bar' & held & others & E & H & O). exists bar', held, (s :: others).
    rewrite E, K. split; [reflexivity|]. split; [exact H|]. destruct bar as [b|].
    + destruct O as (-> & ->). auto.
    + destruct bar' as [b|].
      * destruct O as (p1 & p2 & -> & TB & N & ->). exists (s :: p1), p2. split; [reflexivity|]. split; [exact TB|]. split.
        -- intros x [<-|J]; auto.
        -- cbn [app filter]. rewrite K. reflexivity.
      * destruct O as (N & ->). split; [|reflexivity]. intros x [<-|J]; auto.
Qed.

Lemma loop_trigger bar marks t rest : is_trigger t = true ->
  first_bar_loop bar marks false (t :: rest) =
  match bar with Some b => marks ++ [b] | None => [] end ++ t :: filter not_invalid rest.
Proof.
  intros T. cbn [first_bar_loop].
  assert (I : is_type Invalid t = false).
  { apply is_trigger_iff in T. unfold is_type. destruct T as [T|[T|[T|[T|T]]]]; rewrite T; reflexivity. }
  rewrite I, T. cbn [negb andb]. rewrite loop_done. reflexivity.
Qed.

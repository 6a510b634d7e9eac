(** Lemmas about the pairing of slur marks. *)
From Coq Require Import Lia Sorted Permutation.
From Verif Require Import SlurModel.

(** * The marks of a track, in the order they take effect *)
(** In each token the closing marks come first. *)
Record mark := mkM { g_layer : nat; g_tok : stok; g_open : bool; g_idx : nat }.
Definition g_level (m : mark) : nat :=
  Z.to_nat (elisionLevel (if g_open m then "(" else ")")%char (k_text (g_tok m)) (g_idx m)).
Definition token_marks (p : nat * stok) : list mark :=
  if is_null (k_text (snd p)) then []
  else map (mkM (fst p) (snd p) false) (seq 0 (count_char ")" (k_text (snd p)))) ++
       map (mkM (fst p) (snd p) true) (seq 0 (count_char "(" (k_text (snd p)))).
Definition track_tokens (rows : list (list str)) : list (nat * stok) :=
  flat_map (fun r => number_row (fst r) (snd r)) (enumerate_from 0 rows).
Definition slur_marks (rows : list (list str)) : list mark := flat_map token_marks (track_tokens rows).

Definition mark_step (st : option slst) (m : mark) : option slst :=
  if g_open m then open_mark (g_layer m) (g_tok m) st (g_idx m)
  else close_mark (g_layer m) (g_tok m) st (g_idx m).

Lemma fold_map {A B C} (f : A -> B -> A) (g : C -> B) (l : list C) (a : A) :
  fold_left f (map g l) a = fold_left (fun a c => f a (g c)) l a.
Proof. revert a; induction l as [|x l IH]; intros a; cbn; [reflexivity|apply IH]. Qed.
Lemma fold_flat_map {A B C} (f : A -> B -> A) (g : C -> list B) (l : list C) (a : A) :
  fold_left f (flat_map g l) a = fold_left (fun a c => fold_left f (g c) a) l a.
Proof. revert a; induction l as [|x l IH]; intros a; cbn; [reflexivity|]. rewrite fold_left_app. apply IH. Qed.
Lemma fold_ext {A B} (f g : A -> B -> A) (l : list B) (a : A) :
  (forall a b, f a b = g a b) -> fold_left f l a = fold_left g l a.
Proof. intros E. revert a; induction l as [|x l IH]; intros a; cbn; [reflexivity|]. rewrite E. apply IH. Qed.

Lemma slur_token_marks st p : slur_token st p = fold_left mark_step (token_marks p) st.
Proof.
  destruct p as [layer tok]. unfold slur_token, token_marks. cbn [fst snd].
  destruct (is_null (k_text tok)); [reflexivity|].
  rewrite fold_left_app, !fold_map. reflexivity.
Qed.

Lemma analyze_marks rows : analyzeSpineSlurs rows = fold_left mark_step (slur_marks rows) (Some s0).
Proof.
  unfold analyzeSpineSlurs, slur_marks, track_tokens.
  rewrite !fold_flat_map. apply fold_ext. intros a r.
  apply fold_ext. intros b p. apply slur_token_marks.
Qed.

(** The level of a mark is never negative. *)
Lemma elision_scan_nonneg c s : forall t amps, t < count_char c s -> (0 <= elision_scan c t amps s)%Z.
Proof.
  unfold count_char. induction s as [|x s IH]; intros t amps H; cbn [filter length elision_scan] in *; [lia|].
  rewrite Ascii.eqb_sym in H. destruct (Ascii.eqb x c) eqn:E; cbn [length] in H.
  - destruct t as [|t]; [lia|]. apply IH. lia.
  - apply IH. lia.
Qed.

Definition mark_ok (m : mark) : Prop :=
  (0 <= elisionLevel (if g_open m then "(" else ")")%char (k_text (g_tok m)) (g_idx m))%Z.
Lemma slur_marks_ok rows : Forall mark_ok (slur_marks rows).
Proof.
  apply Forall_forall. intros m Hm. apply in_flat_map in Hm as [p [_ Hm]].
  unfold token_marks in Hm. destruct (is_null _); [destruct Hm|].
  apply in_app_iff in Hm as [Hm|Hm]; apply in_map_iff in Hm as [i [<- Hi]]; apply in_seq in Hi;
    apply elision_scan_nonneg; cbn in *; lia.
Qed.

(** A mark fits when the code has a list for its elision level and layer. *)
Definition fits (m : mark) : Prop := g_level m < 4 /\ g_layer m < 8.

(** * What happens with a run, in terms of positions of marks *)
Section Run.
Variable ms : list mark.
Hypothesis OK : Forall mark_ok ms.
Definition mat (i : nat) (m : mark) : Prop := nth_error ms i = Some m.
Definition dm : mark := mkM 0 (mkSt (0, 0) []) true 0.
Definition tk (i : nat) : stok := g_tok (nth i ms dm).
Definition opened (l t i : nat) : Prop := exists m, mat i m /\ g_open m = true /\ g_level m = l /\ g_layer m = t.
Definition closed (l t i : nat) : Prop := exists m, mat i m /\ g_open m = false /\ g_level m = l /\ g_layer m = t.

Lemma mat_tk i m : mat i m -> tk i = g_tok m.
Proof. intros H. unfold tk, mat in *. now rewrite (nth_error_nth ms i dm H). Qed.
Lemma opened_inj l t l' t' i : opened l t i -> opened l' t' i -> l = l' /\ t = t'.
Proof. intros [m [M [_ [A B]]]] [m' [M' [_ [A' B']]]]. unfold mat in *. rewrite M in M'. injection M' as <-. lia. Qed.
Lemma opened_closed l t l' t' i : opened l t i -> closed l' t' i -> False.
Proof. intros [m [M [A _]]] [m' [M' [A' _]]]. unfold mat in *. rewrite M in M'. injection M' as <-. congruence. Qed.

Record gst := mkG { gopens : nat -> nat -> list nat; gpairs : list (nat * nat); ghang : list nat }.
Definition rel (st : slst) (g : gst) : Prop :=
  (forall l t, s_opens st l t = map tk (gopens g l t)) /\
  s_pairs st = map (fun p => (tk (fst p), tk (snd p))) (gpairs g) /\
  s_hang st = map tk (ghang g).

(** Sums of openings minus closings at a level, strictly between two positions. *)
Definition delta (l p : nat) : Z :=
  match nth_error ms p with
  | Some m => if Nat.eqb (g_level m) l then (if g_open m then 1 else -1)%Z else 0%Z
  | None => 0%Z
  end.
Definition excess (l i k : nat) : Z := fold_right Z.add 0%Z (map (delta l) (seq (S i) (k - S i))).

Lemma fold_add_app (a b : list Z) :
  fold_right Z.add 0%Z (a ++ b) = (fold_right Z.add 0%Z a + fold_right Z.add 0%Z b)%Z.
Proof. induction a as [|x a IH]; cbn; [lia|]. rewrite IH. lia. Qed.
Lemma excess_self l i : excess l i (S i) = 0%Z.
Proof. unfold excess. now rewrite Nat.sub_diag. Qed.
Lemma excess_S l i k : i < k -> excess l i (S k) = (excess l i k + delta l k)%Z.
Proof.
  intros H. unfold excess. replace (S k - S i) with (S (k - S i)) by lia.
  rewrite seq_S, map_app, fold_add_app. cbn. replace (S (i + (k - S i))) with k by lia. lia.
Qed.

Record inv (n : nat) (g : gst) : Prop := mkInv {
  i_open : forall l t i, In i (gopens g l t) <->
             i < n /\ opened l t i /\ ~ In i (map fst (gpairs g));
  i_order : forall l t, StronglySorted (fun a b => b < a) (gopens g l t);
  i_pair : forall i j, In (i, j) (gpairs g) -> i < j < n /\ exists l t t', opened l t i /\ closed l t' j;
  i_once : NoDup (map fst (gpairs g));
  i_sorted : StronglySorted lt (map snd (gpairs g));
  i_hsorted : StronglySorted lt (ghang g);
  i_close : forall l t j, closed l t j -> j < n -> (In j (map snd (gpairs g)) <-> ~ In j (ghang g));
  i_hclose : forall j, In j (ghang g) -> j < n /\ exists l t, closed l t j;
  (* a closing mark stays unpaired only if every earlier opening of its level is taken *)
  i_hmax : forall l t j i t', In j (ghang g) -> closed l t j -> opened l t' i -> i < j ->
             exists j', j' < j /\ In (i, j') (gpairs g);
  (* the layer of the closing mark comes first *)
  i_own : forall l t t' i j i', In (i, j) (gpairs g) -> closed l t j -> opened l t' i -> t <> t' ->
             opened l t i' -> i' < j -> exists j', j' < j /\ In (i', j') (gpairs g);
  (* the last opening is closed first *)
  i_lifo : forall l t i j i', In (i, j) (gpairs g) -> opened l t i -> opened l t i' -> i < i' < j ->
             exists j', j' < j /\ In (i', j') (gpairs g) }.

Lemma sorted_snoc {A} (R : A -> A -> Prop) l x :
  StronglySorted R l -> (forall y, In y l -> R y x) -> StronglySorted R (l ++ [x]).
Proof.
  induction l as [|y l IH]; intros H K; cbn; [constructor; constructor|].
  apply StronglySorted_inv in H as [H F]. constructor.
  - apply IH; [assumption|]. intros z Hz. apply K. now right.
  - apply Forall_app. split; [assumption|]. constructor; [apply K; now left|constructor].
Qed.
Lemma sorted_lt_nodup l : StronglySorted lt l -> NoDup l.
Proof.
  induction l as [|x l IH]; intros H; constructor; apply StronglySorted_inv in H as [H F]; [|auto].
  intros C. rewrite Forall_forall in F. specialize (F x C). lia.
Qed.
Lemma sorted_gt_nodup l : StronglySorted (fun a b => b < a) l -> NoDup l.
Proof.
  induction l as [|x l IH]; intros H; constructor; apply StronglySorted_inv in H as [H F]; [|auto].
  intros C. rewrite Forall_forall in F. specialize (F x C). lia.
Qed.

Lemma map_nil_iff {A B} (f : A -> B) l : map f l = [] <-> l = [].
Proof. destruct l; cbn; split; congruence. Qed.

Definition gset (g : gst) (l t : nat) (v : list nat) : nat -> nat -> list nat :=
  fun l' t' => if Nat.eqb l' l && Nat.eqb t' t then v else gopens g l' t'.
Lemma gset_same g l t v : gset g l t v l t = v.
Proof. unfold gset. now rewrite !Nat.eqb_refl. Qed.
Lemma gset_other g l t v l' t' : (l', t') <> (l, t) -> gset g l t v l' t' = gopens g l' t'.
Proof.
  intros N. unfold gset. destruct (Nat.eqb_spec l' l), (Nat.eqb_spec t' t); cbn; try reflexivity. subst. congruence.
Qed.
Lemma gset_cases g l t v l' t' :
  (l' = l /\ t' = t /\ gset g l t v l' t' = v) \/ ((l', t') <> (l, t) /\ gset g l t v l' t' = gopens g l' t').
Proof.
  destruct (Nat.eq_dec l' l) as [->|N]; [destruct (Nat.eq_dec t' t) as [->|N]|].
  - left. now rewrite gset_same.
  - right. assert ((l, t') <> (l, t)) by congruence. split; [assumption|now apply gset_other].
  - right. assert ((l', t') <> (l, t)) by congruence. split; [assumption|now apply gset_other].
Qed.

(** ** Opening *)
Lemma inv_open n g m : inv n g -> mat n m -> g_open m = true ->
  inv (S n) (mkG (gset g (g_level m) (g_layer m) (n :: gopens g (g_level m) (g_layer m))) (gpairs g) (ghang g)).
Proof.
  intros I M O.
  assert (On : opened (g_level m) (g_layer m) n) by (exists m; auto).
  assert (Fn : forall i j, In (i, j) (gpairs g) -> i < n /\ j < n) by (intros i j H; apply (i_pair n g I) in H; lia).
  constructor; cbn [gopens gpairs ghang].
  - intros l t i.
    destruct (gset_cases g (g_level m) (g_layer m) (n :: gopens g (g_level m) (g_layer m)) l t)
      as [[-> [-> ->]]|[N ->]].
    + cbn [In]. rewrite (i_open n g I). split.
      * intros [<-|[A [B C]]]; [|repeat split; auto].
        repeat split; [lia|assumption|]. intros H. apply in_map_iff in H as [[x y] [E H]]. cbn in E. subst x.
        apply Fn in H. lia.
      * intros [A [B C]]. destruct (Nat.eq_dec i n); [left; congruence|right]. repeat split; auto. lia.
    + rewrite (i_open n g I). split; intros [A [B C]]; repeat split; auto.
      destruct (Nat.eq_dec i n) as [->|]; [|lia]. destruct (opened_inj _ _ _ _ _ B On) as [-> ->]. congruence.
  - intros l t.
    destruct (gset_cases g (g_level m) (g_layer m) (n :: gopens g (g_level m) (g_layer m)) l t)
      as [[-> [-> ->]]|[N ->]].
    + constructor; [apply (i_order n g I)|]. apply Forall_forall. intros x Hx. apply (i_open n g I) in Hx. lia.
    + apply (i_order n g I).
  - intros i j H. apply (i_pair n g I) in H as [A B]. split; [lia|assumption].
  - apply (i_once n g I).
  - apply (i_sorted n g I).
  - apply (i_hsorted n g I).
  - intros l t j C L. destruct (Nat.eq_dec j n) as [->|]; [exfalso; eapply opened_closed; eassumption|].
    eapply (i_close n g I); [eassumption|lia].
  - intros j H. apply (i_hclose n g I) in H as [A B]. split; [lia|assumption].
  - intros. eapply (i_hmax n g I); eassumption.
  - intros. eapply (i_own n g I); eassumption.
  - intros. eapply (i_lifo n g I); eassumption.
Qed.

(** ** Closing with the opening [i] of layer [t] *)
Lemma inv_pair n g m t i rest : inv n g -> mat n m -> g_open m = false ->
  gopens g (g_level m) t = i :: rest ->
  (t <> g_layer m -> gopens g (g_level m) (g_layer m) = []) ->
  inv (S n) (mkG (gset g (g_level m) t rest) (gpairs g ++ [(i, n)]) (ghang g)).
Proof.
  intros I M O E Own.
  assert (Cn : closed (g_level m) (g_layer m) n) by (exists m; auto).
  assert (Fn : forall i j, In (i, j) (gpairs g) -> i < n /\ j < n) by (intros i' j H; apply (i_pair n g I) in H; lia).
  assert (Ii : In i (gopens g (g_level m) t)) by (rewrite E; now left).
  pose proof (i_order n g I (g_level m) t) as So. rewrite E in So. apply StronglySorted_inv in So as [So Fo].
  rewrite Forall_forall in Fo.
  apply (i_open n g I) in Ii as [Li [Oi Ni]].
  assert (Taken : forall l' t' i', opened l' t' i' -> i' < n -> ~ In i' (gopens g l' t') ->
                    exists j', j' < n /\ In (i', j') (gpairs g)).
  { intros l' t' i' O' L' N'. destruct (in_dec Nat.eq_dec i' (map fst (gpairs g))) as [H|H].
    - apply in_map_iff in H as [[x y] [Ex H]]. cbn in Ex. subst x. exists y. split; [now apply Fn in H|assumption].
    - exfalso. apply N'. apply (i_open n g I). auto. }
  constructor; cbn [gopens gpairs ghang].
  - intros l t' x. rewrite map_app, in_app_iff. cbn [map fst In].
    destruct (gset_cases g (g_level m) t rest l t') as [[-> [-> ->]]|[N ->]].
    + assert (In x rest <-> In x (gopens g (g_level m) t) /\ x <> i) as ->.
      { rewrite E. cbn [In]. split.
        - intros H. split; [now right|]. specialize (Fo x H). lia.
        - intros [[H|H] Nx]; [congruence|assumption]. }
      rewrite (i_open n g I). split.
      * intros [[A [B C]] D]. repeat split; auto. intros [H|[H|[]]]; [contradiction|congruence].
      * intros [A [B C]]. repeat split; auto.
        destruct (Nat.eq_dec x n) as [->|]; [exfalso; eapply opened_closed; eassumption|lia].
    + rewrite (i_open n g I). split; intros [A [B C]]; repeat split; auto.
      * intros [H|[H|[]]]; [contradiction|]. subst x. destruct (opened_inj _ _ _ _ _ B Oi). congruence.
      * destruct (Nat.eq_dec x n) as [->|]; [exfalso; eapply opened_closed; eassumption|lia].
  - intros l t'. destruct (gset_cases g (g_level m) t rest l t') as [[-> [-> ->]]|[N ->]]; [assumption|apply (i_order n g I)].
  - intros x y H. apply in_app_iff in H as [H|[H|[]]].
    + apply (i_pair n g I) in H as [A B]. split; [lia|assumption].
    + injection H as <- <-. split; [lia|]. exists (g_level m), t, (g_layer m). auto.
  - rewrite map_app. cbn. apply (Permutation_NoDup (l := i :: map fst (gpairs g))); [apply Permutation_cons_append|].
    constructor; [assumption|apply (i_once n g I)].
  - rewrite map_app. cbn. apply sorted_snoc; [apply (i_sorted n g I)|].
    intros y H. apply in_map_iff in H as [[a b] [<- H]]. apply Fn in H. cbn. lia.
  - apply (i_hsorted n g I).
  - intros l t' j C L. rewrite map_app, in_app_iff. cbn [map snd In].
    destruct (Nat.eq_dec j n) as [->|Nj].
    + split; [|auto]. intros _ H. apply (i_hclose n g I) in H. lia.
    + rewrite <- (i_close n g I l t' j C) by lia. intuition congruence.
  - intros j H. apply (i_hclose n g I) in H as [A B]. split; [lia|assumption].
  - intros l t1 j i' t' H C O' L. destruct (i_hmax n g I l t1 j i' t' H C O' L) as [j' [A B]].
    exists j'. split; [assumption|]. apply in_app_iff. now left.
  - intros l t1 t' a b i' H C O' N O2 L. apply in_app_iff in H as [H|[H|[]]].
    + destruct (i_own n g I l t1 t' a b i' H C O' N O2 L) as [j' [A B]].
      exists j'. split; [assumption|]. apply in_app_iff. now left.
    + injection H as <- <-. destruct C as [m' [M' [_ [El Et]]]]. unfold mat in *. rewrite M in M'. injection M' as <-.
      destruct (opened_inj _ _ _ _ _ O' Oi) as [_ ->]. subst l t1.
      destruct (Taken _ _ i' O2 L) as [j' [A B]]; [rewrite Own by congruence; auto|].
      exists j'. split; [assumption|]. apply in_app_iff. now left.
  - intros l t1 a b i' H O1 O2 L. apply in_app_iff in H as [H|[H|[]]].
    + destruct (i_lifo n g I l t1 a b i' H O1 O2 L) as [j' [A B]].
      exists j'. split; [assumption|]. apply in_app_iff. now left.
    + injection H as <- <-. destruct (opened_inj _ _ _ _ _ O1 Oi) as [-> ->].
      destruct (Taken _ _ i' O2 (proj2 L)) as [j' [A B]].
      * rewrite E. intros [H|H]; [lia|]. specialize (Fo i' H). lia.
      * exists j'. split; [assumption|]. apply in_app_iff. now left.
Qed.

(** ** A closing mark without an opening *)
Lemma inv_hang n g m : inv n g -> mat n m -> g_open m = false ->
  (forall t i, opened (g_level m) t i -> i < n -> In i (map fst (gpairs g))) ->
  inv (S n) (mkG (gopens g) (gpairs g) (ghang g ++ [n])).
Proof.
  intros I M O None_.
  assert (Cn : closed (g_level m) (g_layer m) n) by (exists m; auto).
  assert (Fn : forall i j, In (i, j) (gpairs g) -> i < n /\ j < n) by (intros i' j H; apply (i_pair n g I) in H; lia).
  constructor; cbn [gopens gpairs ghang].
  - intros l t i. rewrite (i_open n g I). split; intros [A [B C]]; repeat split; auto.
    destruct (Nat.eq_dec i n) as [->|]; [exfalso; eapply opened_closed; eassumption|lia].
  - apply (i_order n g I).
  - intros i j H. apply (i_pair n g I) in H as [A B]. split; [lia|assumption].
  - apply (i_once n g I).
  - apply (i_sorted n g I).
  - apply sorted_snoc; [apply (i_hsorted n g I)|]. intros y H. apply (i_hclose n g I) in H. lia.
  - intros l t j C L. rewrite in_app_iff. cbn [In].
    destruct (Nat.eq_dec j n) as [->|Nj].
    + split; [|tauto]. intros H. apply in_map_iff in H as [[a b] [E H]]. cbn in E. subst b. apply Fn in H. lia.
    + rewrite (i_close n g I l t j C) by lia. split; intros H; [intros [K|[K|[]]]; [contradiction|congruence]|tauto].
  - intros j H. apply in_app_iff in H as [H|[<-|[]]].
    + apply (i_hclose n g I) in H as [A B]. split; [lia|assumption].
    + split; [lia|]. eauto.
  - intros l t j i t' H C O' L. apply in_app_iff in H as [H|[<-|[]]].
    + eapply (i_hmax n g I); eassumption.
    + destruct C as [m' [M' [_ [El Et]]]]. unfold mat in *. rewrite M in M'. injection M' as <-. subst l.
      specialize (None_ _ _ O' L). apply in_map_iff in None_ as [[a b] [E H]]. cbn in E. subst a.
      exists b. split; [now apply Fn in H|assumption].
  - intros. eapply (i_own n g I); eassumption.
  - intros. eapply (i_lifo n g I); eassumption.
Qed.

(** * The run *)
Definition final (st : slst) (g : gst) (n : nat) : Prop := rel st g /\ inv n g.

Lemma inv_0 : inv 0 (mkG (fun _ _ => []) [] []).
Proof.
  constructor; cbn; intros; try constructor; try tauto; try lia.
Qed.

(** The first layer with an opening. *)
Lemma other_layer_some st l t : other_layer st l = Some t -> s_opens st l t <> [].
Proof.
  unfold other_layer. intros H. apply find_some in H as [_ H]. destruct (s_opens st l t); congruence.
Qed.
Lemma other_layer_none st l t : other_layer st l = None -> t < LAYERS -> s_opens st l t = [].
Proof.
  unfold other_layer. intros H L. eapply find_none in H; [|apply in_seq; split; [apply Nat.le_0_l|exact L]].
  destruct (s_opens st l t); congruence.
Qed.

Definition all_fit : Prop := Forall fits ms.

Lemma level_guard m : fits m -> negb ((g_level m <? LEVELS) && (g_layer m <? LAYERS)) = false.
Proof.
  intros [A B]. apply Nat.ltb_lt in A, B. unfold LEVELS, LAYERS. now rewrite A, B.
Qed.
Lemma level_guard_false m : negb ((g_level m <? LEVELS) && (g_layer m <? LAYERS)) = false -> fits m.
Proof.
  intros H. apply negb_false_iff, andb_true_iff in H as [A B]. apply Nat.ltb_lt in A, B. now split.
Qed.

Lemma mark_step_open st m : mark_ok m -> g_open m = true ->
  mark_step (Some st) m =
    if negb ((g_level m <? LEVELS) && (g_layer m <? LAYERS)) then None
    else Some (set_opens st (g_level m) (g_layer m) (g_tok m :: s_opens st (g_level m) (g_layer m))).
Proof.
  intros K O. unfold mark_step, open_mark, mark_ok, g_level in *. rewrite O in *.
  destruct (Z.ltb_spec (elisionLevel "(" (k_text (g_tok m)) (g_idx m)) 0); [lia|reflexivity].
Qed.
Lemma mark_step_close st m : mark_ok m -> g_open m = false ->
  mark_step (Some st) m =
    if negb ((g_level m <? LEVELS) && (g_layer m <? LAYERS)) then None
    else match s_opens st (g_level m) (g_layer m) with
         | a :: rest => Some (set_opens (link_slur st a (g_tok m)) (g_level m) (g_layer m) rest)
         | [] =>
             match other_layer st (g_level m) with
             | Some t =>
                 match s_opens st (g_level m) t with
                 | a :: rest => Some (set_opens (link_slur st a (g_tok m)) (g_level m) t rest)
                 | [] => Some st
                 end
             | None => Some (add_hang st (g_tok m))
             end
         end.
Proof.
  intros K O. unfold mark_step, close_mark, mark_ok, g_level in *. rewrite O in *.
  destruct (Z.ltb_spec (elisionLevel ")" (k_text (g_tok m)) (g_idx m)) 0); [lia|reflexivity].
Qed.

Lemma rel_opens st g l t v w : rel st g -> v = map tk w ->
  forall l' t', upd_opens (s_opens st) l t v l' t' = map tk (gset g l t w l' t').
Proof.
  intros [R _] E l' t'. unfold upd_opens, gset. destruct (Nat.eqb l' l && Nat.eqb t' t); [assumption|apply R].
Qed.

(** One mark, on matching states. *)
Lemma step_inv n st g m st' : rel st g -> inv n g -> mat n m ->
  mark_step (Some st) m = Some st' ->
  (forall i, i < n -> forall m', mat i m' -> fits m') ->
  fits m /\ exists g', rel st' g' /\ inv (S n) g' /\
    ((g_open m = true /\ g' = mkG (gset g (g_level m) (g_layer m) (n :: gopens g (g_level m) (g_layer m))) (gpairs g) (ghang g)) \/
     (g_open m = false /\ exists t i rest, gopens g (g_level m) t = i :: rest /\
        (t <> g_layer m -> gopens g (g_level m) (g_layer m) = []) /\
        g' = mkG (gset g (g_level m) t rest) (gpairs g ++ [(i, n)]) (ghang g)) \/
     (g_open m = false /\ (forall t, gopens g (g_level m) t = []) /\ g' = mkG (gopens g) (gpairs g) (ghang g ++ [n]))).
Proof.
  intros R I M E Fit.
  assert (K : mark_ok m) by (rewrite Forall_forall in OK; apply OK; eapply nth_error_In; exact M).
  pose proof R as [R1 [R2 R3]].
  assert (Lay : forall l t i, In i (gopens g l t) -> t < LAYERS).
  { intros l t i H. apply (i_open n g I) in H as [A [[m' [M' [_ [_ T]]]] _]]. subst t. now apply (Fit i A m' M'). }
  destruct (g_open m) eqn:O.
  - rewrite (mark_step_open st m K O) in E.
    destruct (negb _) eqn:G; [discriminate|]. injection E as <-. split; [now apply level_guard_false|].
    eexists. split; [|split; [apply (inv_open n g m I M O)|left; auto]].
    split; [|split]; cbn; [|assumption|assumption].
    apply (rel_opens st g); [assumption|]. cbn. now rewrite R1, (mat_tk n m M).
  - rewrite (mark_step_close st m K O) in E.
    destruct (negb _) eqn:G; [discriminate|]. split; [now apply level_guard_false|].
    assert (Pair : forall t i rest, gopens g (g_level m) t = i :: rest ->
              (t <> g_layer m -> gopens g (g_level m) (g_layer m) = []) ->
              rel (set_opens (link_slur st (tk i) (g_tok m)) (g_level m) t (map tk rest))
                  (mkG (gset g (g_level m) t rest) (gpairs g ++ [(i, n)]) (ghang g))).
    { intros t i rest Eg _. split; [|split]; cbn.
      - apply (rel_opens st g); [assumption|reflexivity].
      - rewrite map_app, R2. cbn. now rewrite (mat_tk n m M).
      - assumption. }
    rewrite R1 in E. destruct (gopens g (g_level m) (g_layer m)) as [|i rest] eqn:Eg; cbn [map] in E.
    + destruct (other_layer st (g_level m)) as [t|] eqn:Ot.
      * pose proof (other_layer_some _ _ _ Ot) as Ne. rewrite R1 in Ne, E.
        destruct (gopens g (g_level m) t) as [|i rest] eqn:Eg'; [now cbn in Ne|]. cbn [map] in E. injection E as <-.
        assert (Own : t <> g_layer m -> gopens g (g_level m) (g_layer m) = []) by auto.
        eexists. split; [now apply (Pair t i rest)|]. split; [now apply (inv_pair n g m t i rest)|].
        right; left. split; [reflexivity|]. exists t, i, rest. auto.
      * injection E as <-.
        assert (All : forall t, gopens g (g_level m) t = []).
        { intros t. destruct (gopens g (g_level m) t) as [|i rest] eqn:Eg'; [reflexivity|].
          assert (t < LAYERS) by (apply (Lay (g_level m) t i); rewrite Eg'; now left).
          pose proof (other_layer_none _ _ t Ot H) as C. rewrite R1, Eg' in C. discriminate. }
        eexists. split; [|split; [apply (inv_hang n g m I M O)|right; right; auto]].
        -- split; [|split]; cbn; [assumption|assumption|]. rewrite map_app, R3. cbn. now rewrite (mat_tk n m M).
        -- intros t i Oi Li. destruct (in_dec Nat.eq_dec i (map fst (gpairs g))) as [|N]; [assumption|].
           assert (In i (gopens g (g_level m) t)) by (apply (i_open n g I); auto). rewrite All in H. destruct H.
    + injection E as <-.
      assert (Own : g_layer m <> g_layer m -> gopens g (g_level m) (g_layer m) = []) by congruence.
      eexists. split; [now apply (Pair (g_layer m) i rest)|]. split; [now apply (inv_pair n g m (g_layer m) i rest)|].
      right; left. split; [reflexivity|]. exists (g_layer m), i, rest. split; [assumption|]. split; [congruence|reflexivity].
Qed.

Lemma fold_none ks : fold_left mark_step ks None = None.
Proof. induction ks as [|m ks IH]; [reflexivity|]. cbn. unfold mark_step at 2. destruct (g_open m); exact IH. Qed.

Lemma firstn_S_nth n m : mat n m -> firstn (S n) ms = firstn n ms ++ [m].
Proof.
  unfold mat. revert n. induction ms as [|x l IH]; intros n H; [destruct n; discriminate|].
  destruct n as [|n]; cbn in H; [injection H as ->; reflexivity|].
  cbn [firstn app]. f_equal. apply IH; [|assumption]. now inversion OK.
Qed.

Lemma run_prefix n st : n <= length ms -> fold_left mark_step (firstn n ms) (Some s0) = Some st ->
  (forall i, i < n -> forall m', mat i m' -> fits m') /\ exists g, rel st g /\ inv n g.
Proof.
  revert st. induction n as [|n IH]; intros st L E.
  - cbn in E. injection E as <-. split; [lia|]. exists (mkG (fun _ _ => []) [] []). split; [|apply inv_0].
    split; [|split]; reflexivity.
  - destruct (nth_error ms n) as [m|] eqn:M; [|apply nth_error_None in M; lia].
    rewrite (firstn_S_nth n m M), fold_left_app in E. cbn in E.
    destruct (fold_left mark_step (firstn n ms) (Some s0)) as [st1|] eqn:E1;
      [|unfold mark_step in E; destruct (g_open m); discriminate].
    destruct (IH st1 ltac:(lia) eq_refl) as [Fit [g [R I]]].
    destruct (step_inv n st1 g m st R I M E Fit) as [Fm [g' [R' [I' _]]]].
    split; [|eauto]. intros i Li m' M'. destruct (Nat.eq_dec i n) as [->|]; [|apply (Fit i); [lia|assumption]].
    unfold mat in *. rewrite M in M'. injection M' as <-. assumption.
Qed.

(** The code gets through exactly when all marks fit. *)
Lemma run_total : all_fit -> exists st, fold_left mark_step ms (Some s0) = Some st.
Proof.
  unfold all_fit. clear -OK. generalize s0. induction ms as [|m l IH]; intros s F; [now exists s|].
  inversion F as [|? ? Fm Fl]; subst. inversion OK as [|? ? Km Kl]; subst.
  cbn. destruct (g_open m) eqn:O.
  - rewrite (mark_step_open s m Km O), (level_guard m Fm). now apply IH.
  - rewrite (mark_step_close s m Km O), (level_guard m Fm).
    destruct (s_opens s (g_level m) (g_layer m)); [destruct (other_layer s (g_level m)); [destruct (s_opens _ _ _)|]|];
      now apply IH.
Qed.

(** * One layer: the marks pair like parentheses *)
Definition matches (i j : nat) : Prop :=
  exists l, opened l 0 i /\ closed l 0 j /\ i < j /\ excess l i j = 0%Z /\
            forall k, i < k <= j -> (0 <= excess l i k)%Z.

Definition sinv (n : nat) (g : gst) : Prop :=
  (forall l i, In i (gopens g l 0) <-> i < n /\ opened l 0 i /\ forall k, i < k <= n -> (0 <= excess l i k)%Z) /\
  (forall l k i, nth_error (gopens g l 0) k = Some i -> excess l i n = Z.of_nat k) /\
  (forall i j, In (i, j) (gpairs g) <-> matches i j /\ j < n).

Definition one_layer : Prop := forall m, In m ms -> g_layer m = 0.

Lemma delta_at l n m : mat n m ->
  delta l n = if Nat.eqb (g_level m) l then (if g_open m then 1 else -1)%Z else 0%Z.
Proof. unfold delta, mat. now intros ->. Qed.

Lemma run_single n st : one_layer -> n <= length ms -> fold_left mark_step (firstn n ms) (Some s0) = Some st ->
  (forall i, i < n -> forall m', mat i m' -> fits m') /\ exists g, rel st g /\ inv n g /\ sinv n g.
Proof.
  intros One. revert st. induction n as [|n IH]; intros st L E.
  - cbn in E. injection E as <-. split; [lia|]. exists (mkG (fun _ _ => []) [] []). split; [|split; [apply inv_0|]].
    { split; [|split]; reflexivity. }
    split; [|split]; cbn.
    + intros l i. split; [tauto|lia].
    + intros l k i H. destruct k; discriminate.
    + intros i j. split; [tauto|lia].
  - destruct (nth_error ms n) as [m|] eqn:M; [|apply nth_error_None in M; lia].
    rewrite (firstn_S_nth n m M), fold_left_app in E. cbn in E.
    destruct (fold_left mark_step (firstn n ms) (Some s0)) as [st1|] eqn:E1;
      [|unfold mark_step in E; destruct (g_open m); discriminate].
    destruct (IH st1 ltac:(lia) eq_refl) as [Fit [g [R [I [S1 [S2 S3]]]]]].
    destruct (step_inv n st1 g m st R I M E Fit) as [Fm [g' [R' [I' Cases]]]].
    split.
    { intros i Li m' M'. destruct (Nat.eq_dec i n) as [->|]; [|apply (Fit i); [lia|assumption]].
      unfold mat in *. rewrite M in M'. injection M' as <-. assumption. }
    exists g'. split; [assumption|]. split; [assumption|].
    assert (L0 : g_layer m = 0) by (apply One; eapply nth_error_In; exact M).
    assert (Uniq : forall m', mat n m' -> m' = m) by (intros m' M'; unfold mat in M'; rewrite M in M'; congruence).
    (* how the excess from i changes *)
    assert (Ex : forall l i, i < n -> excess l i (S n) = (excess l i n + delta l n)%Z) by (intros; now apply excess_S).
    assert (Ext : forall l i, i < n -> (forall k, i < k <= S n -> (0 <= excess l i k)%Z) <->
                    ((forall k, i < k <= n -> (0 <= excess l i k)%Z) /\ (0 <= excess l i n + delta l n)%Z)).
    { intros l i Li. split.
      - intros H. split; [intros k Hk; apply H; lia|]. rewrite <- Ex by assumption. apply H. lia.
      - intros [A B] k Hk. destruct (Nat.eq_dec k (S n)) as [->|]; [now rewrite Ex|apply A; lia]. }
    assert (D : forall l, l <> g_level m -> delta l n = 0%Z).
    { intros l N. rewrite (delta_at l n m M). destruct (Nat.eqb_spec (g_level m) l); [congruence|reflexivity]. }
    assert (Dm : delta (g_level m) n = if g_open m then 1%Z else (-1)%Z).
    { rewrite (delta_at _ n m M). now rewrite Nat.eqb_refl. }
    assert (Oth : forall l, l <> g_level m -> gopens g' l 0 = gopens g l 0).
    { intros l N. destruct Cases as [[O ->]|[[O [t [i [rest [Eg [_ ->]]]]]]|[O [All ->]]]]; cbn; [| |reflexivity];
        apply gset_other; congruence. }
    assert (MS : forall i j, matches i j /\ j < S n <-> (matches i j /\ j < n) \/ (j = n /\ matches i j)).
    { intros i j. split; [|intros [[A B]|[-> B]]; split; auto; lia].
      intros [A B]. destruct (Nat.eq_dec j n); [right|left]; split; auto; lia. }
    destruct Cases as [[O Eg']|[[O [t [i0 [rest [Eg [Own Eg']]]]]]|[O [All Eg']]]].
    + (* an opening *)
      assert (On : opened (g_level m) 0 n) by (exists m; auto).
      rewrite O in Dm.
      assert (Gm : gopens g' (g_level m) 0 = n :: gopens g (g_level m) 0).
      { subst g'. cbn. rewrite L0. apply gset_same. }
      split; [|split].
      * intros l i. destruct (Nat.eq_dec l (g_level m)) as [->|N].
        -- rewrite Gm. cbn [In]. rewrite S1. split.
           ++ intros [<-|[A [B C]]].
              ** split; [lia|]. split; [assumption|]. intros k Hk. assert (k = S n) by lia. subst k. rewrite excess_self. lia.
              ** split; [lia|]. split; [assumption|]. apply Ext; [assumption|]. split; [assumption|].
                 specialize (C n ltac:(lia)). lia.
           ++ intros [A [B C]]. destruct (Nat.eq_dec i n); [left; congruence|right].
              assert (Li : i < n) by lia. apply Ext in C; [|assumption]. tauto.
        -- rewrite (Oth l N), S1. split.
           ++ intros [A [B C]]. split; [lia|]. split; [assumption|]. apply Ext; [assumption|]. split; [assumption|].
              rewrite D by assumption. specialize (C n ltac:(lia)). lia.
           ++ intros [A [B C]]. destruct (Nat.eq_dec i n) as [->|].
              { destruct (opened_inj _ _ _ _ _ B On). congruence. }
              assert (Li : i < n) by lia. apply Ext in C; [|assumption]. tauto.
      * intros l k i H. destruct (Nat.eq_dec l (g_level m)) as [->|N].
        -- rewrite Gm in H. destruct k as [|k]; cbn in H; [injection H as <-; apply excess_self|].
           assert (Li : i < n) by (apply nth_error_In, S1 in H; tauto).
           rewrite Ex, Dm by assumption. apply S2 in H. lia.
        -- rewrite (Oth l N) in H. assert (Li : i < n) by (apply nth_error_In, S1 in H; tauto).
           rewrite Ex, D by assumption. apply S2 in H. lia.
      * intros i j. subst g'. cbn. rewrite S3, MS. split; [tauto|]. intros [H|[-> [l [_ [C _]]]]]; [assumption|].
        exfalso. eapply opened_closed; eassumption.
    + (* a closing mark with an opening *)
      assert (Cn : closed (g_level m) 0 n) by (exists m; auto).
      assert (t = 0) as ->.
      { assert (In i0 (gopens g (g_level m) t)) by (rewrite Eg; now left).
        apply (i_open n g I) in H as [_ [[m' [M' [_ [_ T]]]] _]]. rewrite <- T. apply One. eapply nth_error_In; exact M'. }
      rewrite O in Dm.
      assert (Gm : gopens g' (g_level m) 0 = rest) by (subst g'; cbn; apply gset_same).
      pose proof (i_order n g I (g_level m) 0) as So. rewrite Eg in So. apply StronglySorted_inv in So as [_ Fo].
      rewrite Forall_forall in Fo.
      assert (Hi0 : In i0 (gopens g (g_level m) 0)) by (rewrite Eg; now left).
      assert (X0 : excess (g_level m) i0 n = 0%Z) by (apply (S2 _ 0); rewrite Eg; reflexivity).
      assert (M0 : matches i0 n).
      { apply S1 in Hi0 as [A [B C]]. exists (g_level m). repeat split; auto. }
      split; [|split].
      * intros l i. destruct (Nat.eq_dec l (g_level m)) as [->|N].
        -- rewrite Gm. split.
           ++ intros H. assert (H' : In i (gopens g (g_level m) 0)) by (rewrite Eg; now right).
              apply S1 in H' as [A [B C]]. split; [lia|]. split; [assumption|]. apply Ext; [assumption|].
              split; [assumption|]. apply In_nth_error in H as [k Hk].
              assert (excess (g_level m) i n = Z.of_nat (S k)) by (apply S2; rewrite Eg; exact Hk). lia.
           ++ intros [A [B C]]. assert (Li : i < n).
              { destruct (Nat.eq_dec i n) as [->|]; [exfalso; eapply opened_closed; eassumption|lia]. }
              apply Ext in C as [C1 C2]; [|assumption].
              assert (H : In i (gopens g (g_level m) 0)) by (apply S1; auto).
              rewrite Eg in H. destruct H as [<-|H]; [|assumption]. lia.
        -- rewrite (Oth l N), S1. split.
           ++ intros [A [B C]]. split; [lia|]. split; [assumption|]. apply Ext; [assumption|]. split; [assumption|].
              rewrite D by assumption. specialize (C n ltac:(lia)). lia.
           ++ intros [A [B C]]. destruct (Nat.eq_dec i n) as [->|]; [exfalso; eapply opened_closed; eassumption|].
              assert (Li : i < n) by lia. apply Ext in C; [|assumption]. tauto.
      * intros l k i H. destruct (Nat.eq_dec l (g_level m)) as [->|N].
        -- rewrite Gm in H. assert (H' : nth_error (gopens g (g_level m) 0) (S k) = Some i) by (now rewrite Eg).
           assert (Li : i < n) by (apply nth_error_In, S1 in H'; tauto).
           rewrite Ex, Dm by assumption. apply S2 in H'. lia.
        -- rewrite (Oth l N) in H. assert (Li : i < n) by (apply nth_error_In, S1 in H; tauto).
           rewrite Ex, D by assumption. apply S2 in H. lia.
      * intros i j. subst g'. cbn. rewrite in_app_iff, MS, S3. cbn [In]. split.
        -- intros [H|[H|[]]]; [now left|]. injection H as <- <-. auto.
        -- intros [H|[-> [l [Oi [Cj [Li [X P]]]]]]]; [now left|]. right. left.
           destruct Cj as [m' [M' [_ [El _]]]]. apply Uniq in M'. subst m' l.
           assert (H : In i (gopens g (g_level m) 0)) by (apply S1; auto).
           apply In_nth_error in H as [k Hk]. pose proof (S2 _ _ _ Hk) as Xk. assert (k = 0) by lia. subst k.
           rewrite Eg in Hk. cbn in Hk. congruence.
    + (* a closing mark without an opening *)
      assert (Cn : closed (g_level m) 0 n) by (exists m; auto).
      rewrite O in Dm.
      assert (Gm : gopens g' (g_level m) 0 = []) by (subst g'; cbn; apply All).
      split; [|split].
      * intros l i. destruct (Nat.eq_dec l (g_level m)) as [->|N].
        -- rewrite Gm. split; [intros []|]. intros [A [B C]].
           assert (Li : i < n).
           { destruct (Nat.eq_dec i n) as [->|]; [exfalso; eapply opened_closed; eassumption|lia]. }
           apply Ext in C as [C1 C2]; [|assumption].
           assert (H : In i (gopens g (g_level m) 0)) by (apply S1; auto). rewrite All in H. destruct H.
        -- rewrite (Oth l N), S1. split.
           ++ intros [A [B C]]. split; [lia|]. split; [assumption|]. apply Ext; [assumption|]. split; [assumption|].
              rewrite D by assumption. specialize (C n ltac:(lia)). lia.
           ++ intros [A [B C]]. destruct (Nat.eq_dec i n) as [->|]; [exfalso; eapply opened_closed; eassumption|].
              assert (Li : i < n) by lia. apply Ext in C; [|assumption]. tauto.
      * intros l k i H. destruct (Nat.eq_dec l (g_level m)) as [->|N].
        -- rewrite Gm in H. destruct k; discriminate.
        -- rewrite (Oth l N) in H. assert (Li : i < n) by (apply nth_error_In, S1 in H; tauto).
           rewrite Ex, D by assumption. apply S2 in H. lia.
      * intros i j. subst g'. cbn. rewrite MS, S3. split; [tauto|].
        intros [H|[-> [l [Oi [Cj [Li [X P]]]]]]]; [assumption|]. exfalso.
        destruct Cj as [m' [M' [_ [El _]]]]. apply Uniq in M'. subst m' l.
        assert (H : In i (gopens g (g_level m) 0)) by (apply S1; auto). rewrite All in H. destruct H.
Qed.

End Run.

(** Proofs about the token graph and the track numbers. *)
From Verif Require Import PyStr PyStrProofs LayoutModel TextModel SpineModel SpineProofs SpineProofs2.

Definition ref_dec (a b : tokref) : {a = b} + {a <> b}.
Proof. decide equality; apply Nat.eq_dec. Defined.

Lemma ref_eqb_eq a b : ref_eqb a b = true <-> a = b.
Proof.
  destruct a as [a1 a2], b as [b1 b2]. unfold ref_eqb. cbn [fst snd].
  rewrite andb_true_iff, !Nat.eqb_eq. split; [intros [-> ->]; reflexivity|intros [= -> ->]; auto].
Qed.
Lemma ref_eqb_neq a b : a <> b -> ref_eqb a b = false.
Proof. intros H. destruct (ref_eqb a b) eqn:E; [apply ref_eqb_eq in E; contradiction|reflexivity]. Qed.
Lemma ref_eqb_refl a : ref_eqb a a = true.
Proof. apply ref_eqb_eq. reflexivity. Qed.

(** ** Symmetry *)
Definition symmetric (g : graph) : Prop :=
  forall a b, count_occ ref_dec (nextTokens g a) b = count_occ ref_dec (previousTokens g b) a.

Lemma count_occ_snoc l (x y : tokref) :
  count_occ ref_dec (l ++ [x]) y = count_occ ref_dec l y + if ref_dec x y then 1 else 0.
Proof. rewrite count_occ_app. cbn [count_occ]. destruct (ref_dec x y); reflexivity. Qed.

Lemma makeForwardLink_symmetric a b g : symmetric g -> symmetric (makeForwardLink a b g).
Proof.
  intros H x y. unfold makeForwardLink. cbn [nextTokens previousTokens].
  specialize (H x y).
  destruct (ref_dec x a) as [->|Nx]; destruct (ref_dec y b) as [->|Ny].
  - rewrite !ref_eqb_refl, !count_occ_snoc, H.
    destruct (ref_dec b b); [|contradiction]. destruct (ref_dec a a); [|contradiction]. reflexivity.
  - rewrite ref_eqb_refl, (ref_eqb_neq y b Ny), count_occ_snoc, H.
    destruct (ref_dec b y); [congruence|]. lia.
  - rewrite ref_eqb_refl, (ref_eqb_neq x a Nx), count_occ_snoc, H.
    destruct (ref_dec a x); [congruence|]. lia.
  - rewrite (ref_eqb_neq x a Nx), (ref_eqb_neq y b Ny). exact H.
Qed.

Lemma add_links_symmetric pl nl links : forall g, symmetric g -> symmetric (add_links pl nl links g).
Proof.
  unfold add_links. induction links as [|l links IH]; intros g H; [exact H|].
  cbn [fold_left]. apply IH. apply makeForwardLink_symmetric. exact H.
Qed.

Lemma analyzeLinks_symmetric ls : forall ln prev g g',
  analyzeLinks_from ln prev ls g = Fine g' -> symmetric g -> symmetric g'.
Proof.
  induction ls as [|l ls IH]; intros ln prev g g' H S; [injection H as <-; exact S|].
  cbn [analyzeLinks_from] in H. destruct (isGlobalLine l); [eapply IH; eassumption|].
  destruct prev as [[pl p]|]; [|eapply IH; eassumption].
  destruct (stitchLinesTogether p l); try discriminate.
  eapply IH; [exact H|]. apply add_links_symmetric. exact S.
Qed.

(** ** Which links there are *)
Lemma add_links_next pl nl links : forall g x y,
  In y (nextTokens (add_links pl nl links g) x) <->
  In y (nextTokens g x) \/ (fst x = pl /\ fst y = nl /\ In (snd x, snd y) links).
Proof.
  unfold add_links. induction links as [|[i j] links IH]; intros g x y; cbn [fold_left In fst snd].
  - tauto.
  - rewrite IH. unfold makeForwardLink. cbn [nextTokens].
    destruct (ref_dec x (pl, i)) as [->|N].
    + rewrite ref_eqb_refl, in_app_iff. cbn [In fst snd]. destruct y as [y1 y2]. cbn [fst snd].
      split.
      * intros [[H|[[= -> ->]|[]]]|H]; [auto|right; auto|right; tauto].
      * intros [H|(_ & -> & [[= ->]|H])]; [auto|left; right; left; reflexivity|right; auto].
    + rewrite ref_eqb_neq by exact N. destruct x as [x1 x2], y as [y1 y2]. cbn [fst snd].
      split; [intros [H|H]; [auto|right; tauto]|].
      intros [H|(-> & -> & [[= -> ->]|H])]; [auto|congruence|right; auto].
Qed.

(** Lines [pl] and [nl] are spined and have no spined line between them. *)
Definition adjacent_lines (lines : list str) (pl nl : nat) (p q : str) : Prop :=
  nth_error lines pl = Some p /\ nth_error lines nl = Some q /\
  hasSpines p = true /\ hasSpines q = true /\ pl < nl /\
  forall k x, pl < k < nl -> nth_error lines k = Some x -> hasSpines x = false.

Definition last_spined (done : list str) (prev : option (nat * str)) : Prop :=
  match prev with
  | None => forall x, In x done -> hasSpines x = false
  | Some (pl, p) => nth_error done pl = Some p /\ hasSpines p = true /\
      forall k x, pl < k -> nth_error done k = Some x -> hasSpines x = false
  end.

Lemma nth_error_app_l {A} (a b : list A) k : k < length a -> nth_error (a ++ b) k = nth_error a k.
Proof. intros. apply nth_error_app1. assumption. Qed.
Lemma nth_error_snoc {A} (a : list A) x : nth_error (a ++ [x]) (length a) = Some x.
Proof. rewrite nth_error_app2 by lia. rewrite Nat.sub_diag. reflexivity. Qed.
Lemma nth_error_lt {A} (a : list A) k x : nth_error a k = Some x -> k < length a.
Proof. intros H. apply nth_error_Some. congruence. Qed.
Lemma nth_error_snoc_inv {A} (a : list A) x k y :
  nth_error (a ++ [x]) k = Some y -> (k < length a /\ nth_error a k = Some y) \/ (k = length a /\ y = x).
Proof.
  intros H. pose proof (nth_error_lt _ _ _ H) as L. rewrite app_length in L. cbn [length] in L.
  destruct (Nat.eq_dec k (length a)) as [->|N].
  - right. rewrite nth_error_snoc in H. injection H as <-. auto.
  - left. rewrite nth_error_app1 in H by lia. split; [lia|exact H].
Qed.

Lemma last_spined_global done prev l : last_spined done prev -> hasSpines l = false -> last_spined (done ++ [l]) prev.
Proof.
  intros H G. destruct prev as [[pl p]|]; cbn [last_spined] in *.
  - destruct H as (A & B & C). split; [rewrite nth_error_app_l by (eapply nth_error_lt; exact A); exact A|].
    split; [exact B|]. intros k x Hk Hx. destruct (nth_error_snoc_inv _ _ _ _ Hx) as [(_ & E)|(_ & ->)]; [eauto|exact G].
  - intros x Hx. apply in_app_or in Hx. destruct Hx as [Hx|[<-|[]]]; auto.
Qed.
Lemma last_spined_new done l : hasSpines l = true -> last_spined (done ++ [l]) (Some (length done, l)).
Proof.
  intros G. cbn [last_spined]. split; [apply nth_error_snoc|]. split; [exact G|].
  intros k x Hk Hx. apply nth_error_lt in Hx. rewrite app_length in Hx. cbn [length] in Hx. lia.
Qed.

Lemma links_exact ls : forall done prev g g', last_spined done prev ->
  analyzeLinks_from (length done) prev ls g = Fine g' ->
  forall x y, In y (nextTokens g' x) <->
    In y (nextTokens g x) \/
    exists p q links, length done <= fst y /\ adjacent_lines (done ++ ls) (fst x) (fst y) p q /\
      stitchLinesTogether p q = StitchOk links /\ In (snd x, snd y) links.
Proof.
  induction ls as [|l ls IH]; intros done prev g g' HP H x y.
  - injection H as <-. split; [auto|]. intros [A|(p & q & links & L & (_ & N & _) & _)]; [exact A|].
    apply nth_error_lt in N. rewrite app_nil_r in N. lia.
  - cbn [analyzeLinks_from] in H.
    assert (AS : done ++ l :: ls = (done ++ [l]) ++ ls) by (rewrite <- app_assoc; reflexivity).
    assert (LN : length (done ++ [l]) = S (length done)) by (rewrite app_length; cbn [length]; lia).
    assert (AT : nth_error (done ++ l :: ls) (length done) = Some l).
    { rewrite nth_error_app2 by lia. rewrite Nat.sub_diag. reflexivity. }
    destruct (isGlobalLine l) eqn:G.
    + assert (HG : hasSpines l = false) by (unfold hasSpines; rewrite G; reflexivity).
      rewrite <- LN in H. rewrite (IH _ _ _ _ (last_spined_global _ _ _ HP HG) H x y), <- AS, LN.
      split; intros [A|(p & q & links & L & A & B)]; auto; right; exists p, q, links.
      * split; [lia|auto].
      * split; [|auto]. destruct (Nat.eq_dec (length done) (fst y)) as [E|]; [|lia].
        destruct A as (_ & N & _ & S & _). rewrite <- E, AT in N. injection N as <-. congruence.
    + assert (HG : hasSpines l = true) by (unfold hasSpines; rewrite G; reflexivity).
      destruct prev as [[pl p]|].
      * destruct (stitchLinesTogether p l) as [links| |] eqn:ST; try discriminate.
        rewrite <- LN in H. rewrite (IH _ _ _ _ (last_spined_new _ _ HG) H x y), <- AS, LN, add_links_next.
        destruct HP as (P1 & P2 & P3).
        assert (ADJ : adjacent_lines (done ++ l :: ls) pl (length done) p l).
        { pose proof (nth_error_lt _ _ _ P1). repeat split; auto.
          - rewrite nth_error_app_l by assumption. exact P1.
          - intros k z Hk Hz. rewrite nth_error_app_l in Hz by lia. eapply P3; [|exact Hz]. lia. }
        split.
        -- intros [[A|(E1 & E2 & E3)]|(p' & q' & lk & L & A & B)]; [auto| |].
           ++ right. exists p, l, links. rewrite E1, E2. split; [lia|auto].
           ++ right. exists p', q', lk. split; [lia|auto].
        -- intros [A|(p' & q' & lk & L & A & B & C)]; [auto|].
           destruct (Nat.eq_dec (length done) (fst y)) as [E|].
           ++ left. right.
              destruct A as (A1 & A2 & A3 & A4 & A5 & A6).
              rewrite <- E, AT in A2. injection A2 as <-.
              assert (X : fst x = pl).
              { destruct ADJ as (D1 & D2 & D3 & D4 & D5 & D6).
                destruct (Nat.lt_trichotomy (fst x) pl) as [T|[T|T]]; [|exact T|].
                - specialize (A6 pl p ltac:(lia) D1). congruence.
                - specialize (D6 (fst x) p' ltac:(lia) A1). congruence. }
              destruct ADJ as (D1 & _). rewrite X, D1 in A1. injection A1 as <-.
              rewrite ST in B. injection B as <-. auto.
           ++ right. exists p', q', lk. split; [lia|auto].
      * rewrite <- LN in H. rewrite (IH _ _ _ _ (last_spined_new _ _ HG) H x y), <- AS, LN.
        split; intros [A|(p & q & links & L & A & B)]; auto; right; exists p, q, links.
        -- split; [lia|auto].
        -- split; [|auto]. destruct (Nat.eq_dec (length done) (fst y)) as [E|]; [|lia].
           destruct A as (N & _ & S & _ & LT & _). rewrite <- E in LT.
           rewrite nth_error_app_l in N by exact LT. apply nth_error_In in N.
           cbn [last_spined] in HP. rewrite (HP _ N) in S. discriminate.
Qed.

Theorem analyzeLinks_exact lines g : analyzeLinks lines = Fine g ->
  forall x y, In y (nextTokens g x) <->
    exists p q links, adjacent_lines lines (fst x) (fst y) p q /\
      stitchLinesTogether p q = StitchOk links /\ In (snd x, snd y) links.
Proof.
  intros H x y. rewrite (links_exact lines [] None empty_graph g) by (auto; intros ? []).
  cbn [empty_graph nextTokens In app length]. split.
  - intros [[]|(p & q & links & _ & A)]. eauto.
  - intros (p & q & links & A). right. exists p, q, links. split; [lia|exact A].
Qed.

Lemma adjacent_consecutive lines pl nl p q :
  adjacent_lines lines pl nl p q -> consecutive p q (spined lines).
Proof.
  intros (A & B & C & D & E & F).
  destruct (nth_error_split _ _ A) as (l1 & l2 & -> & <-).
  rewrite nth_error_app2 in B by lia. destruct (nl - length l1) as [|k] eqn:K; [lia|].
  cbn [nth_error] in B. destruct (nth_error_split _ _ B) as (m & l3 & -> & <-).
  unfold spined. exists (filter hasSpines l1), (filter hasSpines l3).
  rewrite filter_app. cbn [filter]. rewrite C, filter_app. cbn [filter]. rewrite D.
  replace (filter hasSpines m) with (@nil str); [reflexivity|].
  symmetry. assert (G : forall x, In x m -> hasSpines x = false).
  { intros x Hx. destruct (In_nth_error _ _ Hx) as (i & Hi).
    apply (F (length l1 + S i) x).
    - pose proof (nth_error_lt _ _ _ Hi). lia.
    - rewrite nth_error_app2 by lia. replace (length l1 + S i - length l1) with (S i) by lia.
      cbn [nth_error]. rewrite nth_error_app_l by (eapply nth_error_lt; exact Hi). exact Hi. }
  clear - G. induction m as [|y m IH]; [reflexivity|]. cbn [filter]. rewrite G by (left; reflexivity).
  apply IH. intros. apply G. right. assumption.
Qed.

(** All links join existing tokens. *)
Lemma Forall_snoc {A} (P : A -> Prop) l x : Forall P l -> P x -> Forall P (l ++ [x]).
Proof. intros. apply Forall_app. auto. Qed.

Lemma has_lt next j : has next j = true -> j < length next.
Proof. apply Nat.ltb_lt. Qed.

Section InRange.
Variables (next : list str) (N : nat).
Let ok (l : nat * nat) : Prop := fst l < N /\ snd l < length next.

Lemma link_if_ok b l ls : (b = true -> ok l) -> Forall ok ls -> Forall ok (link_if b l ls).
Proof. intros H1 H2. destruct b; cbn [link_if]; [apply Forall_snoc; auto|exact H2]. Qed.

Lemma stitch_token_ok i t rest s s' : i + S (length rest) = N ->
  stitch_token next i t (hd_error rest) s = Fine s' -> Forall ok (st_links s) -> Forall ok (st_links s').
Proof.
  intros HN H F. unfold stitch_token in H. destruct (kind t) eqn:K.
  - destruct (has next (st_idx s)) eqn:H1.
    + destruct (has next (S (st_idx s))) eqn:H2; injection H as <-; cbn [st_links];
        repeat apply Forall_snoc; auto; split; cbn [fst snd]; try lia; apply has_lt; assumption.
    + rewrite H1 in H. injection H as <-. exact F.
  - destruct (has next (st_idx s)) eqn:H1; [|discriminate]. injection H as <-. cbn [st_links].
    apply Forall_snoc; auto. split; cbn [fst snd]; [lia|apply has_lt; assumption].
  - destruct (nth_error next (S (st_idx s))) as [e|] eqn:E; [|discriminate].
    destruct (isExclusiveInterpretation e); [|discriminate].
    destruct (has next (st_idx s)) eqn:H1; injection H as <-; cbn [st_links]; auto.
    apply Forall_snoc; auto. split; cbn [fst snd]; [lia|apply has_lt; assumption].
  - destruct rest as [|u rest]; cbn [hd_error] in H; [discriminate|].
    destruct (isExchange u); [|discriminate]. injection H as <-. cbn [st_links length] in *.
    apply link_if_ok; [intros X; split; cbn [fst snd]; [lia|apply has_lt; exact X]|].
    apply link_if_ok; [intros X; split; cbn [fst snd]; [lia|apply has_lt; exact X]|]. exact F.
  - injection H as <-. exact F.
  - destruct (has next (st_idx s)) eqn:H1; injection H as <-; cbn [st_links]; auto.
    apply Forall_snoc; auto. split; cbn [fst snd]; [lia|apply has_lt; assumption].
  - destruct (has next (st_idx s)) eqn:H1; injection H as <-; cbn [st_links]; auto.
    apply Forall_snoc; auto. split; cbn [fst snd]; [lia|apply has_lt; assumption].
Qed.

Lemma stitch_loop_ok toks : forall i s s', i + length toks = N ->
  stitch_loop next toks i s = Fine s' -> Forall ok (st_links s) -> Forall ok (st_links s').
Proof.
  induction toks as [|t rest IH]; intros i s s' HN H F; [injection H as <-; exact F|].
  cbn [length] in HN. cbn [stitch_loop] in H.
  destruct (st_skip s); [eapply IH; [|exact H|exact F]; lia|].
  set (inrun := negb (st_merge s =? 0) && isMerge t) in *.
  set (s1 := if inrun then _ else s) in *.
  assert (F1 : Forall ok (st_links s1)).
  { unfold s1. destruct inrun; [|exact F]. cbn [st_links]. apply link_if_ok; [|exact F].
    intros X. split; cbn [fst snd]; [lia|apply has_lt; exact X]. }
  destruct (inrun && negb _); [eapply IH; [|exact H|exact F1]; lia|].
  destruct (negb (st_merge s1 =? 0) && _).
  - destruct (st_merge s1 =? 1); [discriminate|].
    destruct (isMerge t); [eapply IH; [|exact H|exact F1]; lia|].
    destruct (stitch_token _ _ _ _ _) as [s3| |] eqn:E; try discriminate.
    eapply IH; [|exact H|]; [lia|]. eapply stitch_token_ok; [|exact E|exact F1]. lia.
  - destruct (stitch_token _ _ _ _ _) as [s3| |] eqn:E; try discriminate.
    eapply IH; [|exact H|]; [lia|]. eapply stitch_token_ok; [|exact E|exact F1]. lia.
Qed.
End InRange.

Lemma stitch_in_range p q links i j : stitchLinesTogether p q = StitchOk links -> In (i, j) links ->
  i < length (tokens p) /\ j < length (tokens q).
Proof.
  unfold stitchLinesTogether. intros H I.
  destruct (negb (isInterpretationLine p) && _).
  - destruct (length (tokens p) =? length (tokens q)) eqn:E; [|discriminate]. apply Nat.eqb_eq in E.
    cbn [negb] in H. injection H as <-. apply in_map_iff in I. destruct I as (k & [= -> ->] & I).
    apply in_seq in I. lia.
  - destruct (stitch_loop _ _ _ _) as [s| |] eqn:E; try discriminate.
    destruct (st_idx s =? _); [|discriminate]. injection H as <-.
    pose proof (stitch_loop_ok (tokens q) (length (tokens p)) _ 0 _ _ eq_refl E ltac:(constructor)) as F.
    apply (proj1 (Forall_forall _ _) F _ I).
Qed.

(** ** Tracks *)
Lemma incr_at_length n : forall l, length (incr_at n l) = length l.
Proof. induction n as [|n IH]; intros [|x l]; cbn [incr_at length]; auto. Qed.
Lemma nth_incr_at n : forall l k, n < length l ->
  nth k (incr_at n l) 0 = nth k l 0 + if k =? n then 1 else 0.
Proof.
  induction n as [|n IH]; intros [|x l] k H; cbn [length] in H; try lia.
  - destruct k; cbn [incr_at nth Nat.eqb]; lia.
  - destruct k; cbn [incr_at nth Nat.eqb]; [lia|]. apply IH. lia.
Qed.

(** How often each number occurs. *)
Definition occ (n : N) (l : list N) : nat := count_occ N.eq_dec l n.

Lemma counts_spec ts : forall c k, (forall t, In t ts -> N.to_nat t < length c) ->
  nth (N.to_nat k) (fold_left (fun c t => incr_at (N.to_nat t) c) ts c) 0 = nth (N.to_nat k) c 0 + occ k ts.
Proof.
  induction ts as [|t ts IH]; intros c k H; cbn [fold_left]; unfold occ in *; cbn [count_occ]; [lia|].
  rewrite IH by (intros; rewrite incr_at_length; apply H; right; assumption).
  rewrite nth_incr_at by (apply H; left; reflexivity).
  destruct (N.eq_dec t k) as [->|Nk].
  - rewrite Nat.eqb_refl. lia.
  - destruct (N.to_nat k =? N.to_nat t) eqn:E; [apply Nat.eqb_eq in E; lia|]. lia.
Qed.

(** What the sub-track numbers should be: [seen] are the tracks to the left. *)
Definition expected_subtrack (all seen : list N) (t : N) : nat :=
  if 1 <? occ t all then S (occ t seen) else 0.

Lemma mapM_tracks labs addrs :
  mapM (fun lab => set_track (label_track lab) new_address) labs = Some addrs ->
  addrs = map (fun lab => mkAddr (Some (label_track lab)) (-1)%Z 0) labs.
Proof.
  revert addrs. induction labs as [|l labs IH]; intros addrs H; cbn [mapM] in H.
  - injection H as <-. reflexivity.
  - unfold set_track at 1 in H. destruct (1000 <? label_track l)%N; [discriminate|].
    destruct (mapM _ labs) as [ys|]; [|discriminate]. injection H as <-. cbn [map]. f_equal. apply IH. reflexivity.
Qed.

Lemma assign_spec sub curr0 : forall ts seen all curr r,
  (forall t, In t ts -> N.to_nat t < length curr) ->
  (forall t, In t ts -> nth (N.to_nat t) sub 0 = occ t all) ->
  (forall t, In t ts -> 1 <? occ t all = true -> nth (N.to_nat t) curr 0 = occ t seen) ->
  curr0 = curr ->
  assign_subtracks sub curr (map (fun t => mkAddr (Some t) (-1)%Z 0) ts) = Some r ->
  map trackNum r = map Some ts /\
  forall k t a, nth_error ts k = Some t -> nth_error r k = Some a ->
    subTrack a = Z.of_nat (expected_subtrack all (seen ++ firstn k ts) t).
Proof.
  intros ts. revert curr0. induction ts as [|t ts IH]; intros curr0 seen all curr r Hl Hs Hc -> H.
  - injection H as <-. split; [reflexivity|]. intros [|k] ? ? K; discriminate.
  - cbn [map assign_subtracks trackNum] in H. rewrite (Hs t) in H by (left; reflexivity).
    assert (Hl' : forall u, In u ts -> N.to_nat u < length curr) by (intros; apply Hl; right; assumption).
    assert (Hs' : forall u, In u ts -> nth (N.to_nat u) sub 0 = occ u all) by (intros; apply Hs; right; assumption).
    destruct (1 <? occ t all) eqn:E.
    + destruct (set_subTrack _ _) as [a'|] eqn:SA; [|discriminate].
      destruct (assign_subtracks _ _ _) as [r'|] eqn:R; [|discriminate]. injection H as <-.
      assert (CT : nth (N.to_nat t) (incr_at (N.to_nat t) curr) 0 = S (occ t seen)).
      { rewrite nth_incr_at by (apply Hl; left; reflexivity).
        rewrite Nat.eqb_refl, (Hc t) by (auto; left; reflexivity). lia. }
      unfold set_subTrack in SA. destruct (1000 <? _); [discriminate|]. injection SA as <-.
      destruct (IH (incr_at (N.to_nat t) curr) (seen ++ [t]) all (incr_at (N.to_nat t) curr) r') as (A & B).
      * intros u Hu. rewrite incr_at_length. auto.
      * exact Hs'.
      * intros u Hu Eu. rewrite nth_incr_at by (apply Hl; left; reflexivity).
        rewrite (Hc u) by (auto; right; assumption). unfold occ. rewrite count_occ_app. cbn [count_occ].
        destruct (N.eq_dec t u) as [->|N]; [rewrite Nat.eqb_refl; lia|].
        destruct (N.to_nat u =? N.to_nat t) eqn:X; [apply Nat.eqb_eq in X; lia|]. lia.
      * reflexivity.
      * exact R.
      * split; [cbn [map trackNum]; rewrite A; reflexivity|].
        intros [|k] u a K1 K2; cbn [nth_error] in *.
        -- injection K1 as <-. injection K2 as <-. rewrite CT. cbn [firstn]. rewrite app_nil_r.
           unfold subTrack, expected_subtrack. cbn [subTrackCount a_subTrack]. rewrite E. reflexivity.
        -- rewrite (B _ _ _ K1 K2). cbn [firstn]. rewrite <- app_assoc. reflexivity.
    + destruct (set_subTrack _ _) as [a'|] eqn:SA; [|discriminate].
      destruct (assign_subtracks _ _ _) as [r'|] eqn:R; [|discriminate]. injection H as <-.
      unfold set_subTrack in SA. destruct (1000 <? _); [discriminate|]. injection SA as <-.
      destruct (IH curr (seen ++ [t]) all curr r') as (A & B).
      * exact Hl'.
      * exact Hs'.
      * intros u Hu Eu. rewrite (Hc u) by (auto; right; assumption). unfold occ. rewrite count_occ_app. cbn [count_occ].
        destruct (N.eq_dec t u) as [->|N]; [congruence|]. lia.
      * reflexivity.
      * exact R.
      * split; [cbn [map trackNum]; rewrite A; reflexivity|].
        intros [|k] u a K1 K2; cbn [nth_error] in *.
        -- injection K1 as <-. injection K2 as <-. cbn [firstn]. rewrite app_nil_r.
           unfold subTrack, expected_subtrack. cbn [subTrackCount a_subTrack]. rewrite E. reflexivity.
        -- rewrite (B _ _ _ K1 K2). cbn [firstn]. rewrite <- app_assoc. reflexivity.
Qed.

Lemma fold_max_ge l : forall m, m <= fold_left Nat.max l m /\ forall x, In x l -> x <= fold_left Nat.max l m.
Proof.
  induction l as [|y l IH]; intros m; cbn [fold_left]; [split; [lia|intros ? []]|].
  destruct (IH (Nat.max m y)) as (A & B). split; [lia|].
  intros x [->|Hx]; [lia|auto].
Qed.

Theorem analyzeTracks_spec labs addrs : analyzeTracks labs = Some addrs ->
  map trackNum addrs = map (fun lab => Some (label_track lab)) labs /\
  forall k lab a, nth_error labs k = Some lab -> nth_error addrs k = Some a ->
    subTrack a = Z.of_nat (expected_subtrack (map label_track labs) (firstn k (map label_track labs)) (label_track lab)).
Proof.
  unfold analyzeTracks. destruct (mapM _ labs) as [ads|] eqn:M; [|discriminate].
  apply mapM_tracks in M. subst ads. intros H.
  set (ts := map label_track labs) in *.
  assert (E1 : map (fun lab => mkAddr (Some (label_track lab)) (-1)%Z 0) labs =
               map (fun t => mkAddr (Some t) (-1)%Z 0) ts) by (unfold ts; rewrite map_map; reflexivity).
  rewrite E1 in H.
  set (maxT := fold_left _ _ 0) in *. set (zeros := repeat 0 (S maxT)) in *.
  assert (E2 : forall l c, fold_left (fun c a => match trackNum a with Some n => incr_at (N.to_nat n) c | None => c end)
                 (map (fun t => mkAddr (Some t) (-1)%Z 0) l) c = fold_left (fun c t => incr_at (N.to_nat t) c) l c).
  { induction l as [|t l IH]; intros c; [reflexivity|]. cbn [map fold_left trackNum]. apply IH. }
  rewrite E2 in H.
  assert (LT : forall t, In t ts -> N.to_nat t < length zeros).
  { intros t Ht. unfold zeros. rewrite repeat_length. unfold maxT.
    enough (N.to_nat t <= fold_left Nat.max (map (fun lab => N.to_nat (label_track lab)) labs) 0) by lia.
    apply fold_max_ge. unfold ts in Ht. apply in_map_iff in Ht. destruct Ht as (lab & <- & Hl).
    apply in_map_iff. exists lab. auto. }
  assert (Z0 : forall k, nth k zeros 0 = 0).
  { intros k. unfold zeros. apply nth_repeat. }
  assert (HS : forall t, In t ts -> nth (N.to_nat t) (fold_left (fun c t => incr_at (N.to_nat t) c) ts zeros) 0 = occ t ts).
  { intros t Ht. rewrite counts_spec by exact LT. rewrite Z0. reflexivity. }
  destruct (assign_spec _ zeros ts [] ts zeros addrs LT HS (fun t _ _ => Z0 _) eq_refl H) as (A & B).
  split; [rewrite A; unfold ts; rewrite map_map; reflexivity|].
  intros k lab a K1 K2. apply (B k (label_track lab) a); [|exact K2].
  unfold ts. apply map_nth_error. exact K1.
Qed.

Lemma span_digits_app ds s : forallb is_digit ds = true -> ds <> [] ->
  match s with [] => True | c :: _ => is_digit c = false end ->
  label_track (ds ++ s) = parse_N ds.
Proof.
  intros H N Hs. unfold label_track. destruct ds as [|d ds]; [contradiction|].
  cbn [app span forallb] in *. apply andb_true_iff in H. destruct H as [H1 H2].
  destruct (Ascii.eqb "(" d) eqn:E.
  { apply Ascii.eqb_eq in E. subst d. discriminate. }
  cbn [span]. rewrite H1. rewrite span_app_all by assumption. reflexivity.
Qed.

Lemma label_track_paren s : label_track ("("%char :: s) = label_track s.
Proof. unfold label_track. cbn [span]. change (Ascii.eqb "(" "(") with true. cbn iota. destruct (span _ s). reflexivity. Qed.

(** The labels a spine with number [n] can have after splits. *)
Inductive spine_label (n : N) : str -> Prop :=
| sl_top : spine_label n (show_N n)
| sl_half c X : spine_label n X -> spine_label n (half c X).

Lemma spine_label_form n X : spine_label n X -> exists k s, X = repeat "("%char k ++ show_N n ++ s /\
  match s with [] => True | c :: _ => is_digit c = false end.
Proof.
  induction 1 as [|c X _ (k & s & -> & Hs)].
  - exists 0, []. rewrite app_nil_r. auto.
  - exists (S k), (s ++ [")"%char; c]). split.
    + unfold half. cbn [S_ list_ascii_of_string repeat app]. rewrite <- !app_assoc. reflexivity.
    + destruct s; [reflexivity|exact Hs].
Qed.

Lemma spine_label_track n X : spine_label n X -> label_track X = n.
Proof.
  intros H. destruct (spine_label_form _ _ H) as (k & s & -> & Hs). clear H.
  induction k as [|k IH]; cbn [repeat app].
  - rewrite span_digits_app; auto; [apply parse_show_N|apply show_N_digits|].
    destruct (show_N_cons n) as (c & t & -> & _). discriminate.
  - rewrite label_track_paren. exact IH.
Qed.

(** ** Track ends *)
Lemma append_at_last (t : tokref) l : l <> [] -> concat (append_at (length l - 1) t l) = concat l ++ [t].
Proof.
  induction l as [|x l IH]; [contradiction|]. intros _. destruct l as [|y l].
  - cbn. rewrite !app_nil_r. reflexivity.
  - replace (length (x :: y :: l) - 1) with (S (length (y :: l) - 1)) by (cbn [length]; lia). cbn [append_at].
    change (concat (x :: append_at (length (y :: l) - 1) t (y :: l)))
      with (x ++ concat (append_at (length (y :: l) - 1) t (y :: l))).
    rewrite IH by discriminate. cbn [concat]. rewrite <- !app_assoc. reflexivity.
Qed.
Lemma append_at_length (t : tokref) n : forall l, length (append_at n t l) = length l.
Proof. induction n as [|n IH]; intros [|x l]; cbn [append_at length]; auto. Qed.

Definition tracks_ok (tr : tracks) : Prop := length (trackStarts tr) = length (trackEnds tr) /\ trackEnds tr <> [].

Lemma tracks_ok_add o tr : tracks_ok tr ->
  tracks_ok (addToTrackStarts o tr) /\ concat (trackEnds (addToTrackStarts o tr)) = concat (trackEnds tr).
Proof.
  intros [A B].
  assert (G : forall x : option tokref, tracks_ok (mkTracks (trackStarts tr ++ [x]) (trackEnds tr ++ [[]])) /\
              concat (trackEnds tr ++ [[]]) = concat (trackEnds tr)).
  { intros x. split; [split; cbn [trackStarts trackEnds]; [rewrite !app_length, A; reflexivity|destruct (trackEnds tr); discriminate]|].
    rewrite concat_app. cbn [concat]. rewrite !app_nil_r. reflexivity. }
  destruct o as [t|]; cbn [addToTrackStarts]; [|apply G].
  destruct (last_start_pending tr) eqn:L; [|apply G]. split; [|reflexivity]. split; cbn [trackStarts trackEnds]; [|exact B].
  unfold last_start_pending in L. apply andb_true_iff in L. destruct L as [L _]. apply Nat.ltb_lt in L.
  destruct (trackStarts tr) as [|y l] eqn:E; [cbn in L; lia|].
  rewrite (app_removelast_last None (l := y :: l)) in A by discriminate.
  rewrite app_length in *. cbn [length] in *. exact A.
Qed.

Lemma tracks_ok_end t tr : tracks_ok tr ->
  tracks_ok (addTrackEnd t tr) /\ concat (trackEnds (addTrackEnd t tr)) = concat (trackEnds tr) ++ [t].
Proof.
  intros [A B]. unfold addTrackEnd. rewrite A. split; [split; cbn [trackStarts trackEnds]|].
  - rewrite append_at_length. exact A.
  - intros E. apply B. apply length_zero_iff_nil. rewrite <- (append_at_length t (length (trackEnds tr) - 1)), E. reflexivity.
  - cbn [trackEnds]. apply append_at_last. exact B.
Qed.

(** The terminators of a line, in order. *)
Fixpoint terminators (ln i : nat) (toks : list str) : list tokref :=
  match toks with
  | [] => []
  | t :: ts => (if str_eqb t (S_ "*-") then [(ln, i)] else []) ++ terminators ln (S i) ts
  end.

Lemma kind_terminate t : str_eqb t (S_ "*-") = match kind t with KTerminate => true | _ => false end.
Proof.
  pose proof (kind_spec t) as K. destruct (str_eqb t (S_ "*-")) eqn:E.
  - apply str_eqb_eq in E. subst. reflexivity.
  - apply str_eqb_neq in E. destruct (kind t); auto; contradiction.
Qed.

Lemma adjust_token_ends ln dt si i t rest s s' : tracks_ok (a_tracks s) ->
  adjust_token ln dt si i t (hd_error rest) s = Some s' ->
  tracks_ok (a_tracks s') /\
  concat (trackEnds (a_tracks s')) = concat (trackEnds (a_tracks s)) ++ (if str_eqb t (S_ "*-") then [(ln, i)] else []) /\
  (a_skip s' = true -> hd_error rest = Some (S_ "*x")).
Proof.
  intros T H. unfold adjust_token in H. rewrite kind_terminate. destruct (kind t) eqn:K.
  - injection H as <-. cbn [a_tracks a_skip]. rewrite app_nil_r. split; [exact T|split; [reflexivity|discriminate]].
  - injection H as <-. cbn [a_tracks a_skip]. rewrite app_nil_r. split; [exact T|split; [reflexivity|discriminate]].
  - injection H as <-. cbn [a_tracks a_skip]. rewrite app_nil_r.
    destruct (tracks_ok_add None _ T) as (A & B). split; [exact A|split; [exact B|discriminate]].
  - destruct rest as [|u rest]; cbn [hd_error] in *; [discriminate|]. destruct (isExchange u) eqn:E; [|discriminate].
    injection H as <-. cbn [a_tracks a_skip]. rewrite app_nil_r. split; [exact T|split; [reflexivity|]].
    intros _. apply isExchange_spec in E. congruence.
  - injection H as <-. cbn [a_tracks a_skip].
    destruct (tracks_ok_end (ln, i) _ T) as (A & B). split; [exact A|split; [exact B|discriminate]].
  - destruct (last_start_pending (a_tracks s)); [|discriminate]. injection H as <-. cbn [a_tracks a_skip].
    rewrite app_nil_r. destruct (tracks_ok_add (Some (ln, i)) _ T) as (A & B).
    split; [exact A|split; [exact B|discriminate]].
  - injection H as <-. cbn [a_tracks a_skip]. rewrite app_nil_r. split; [exact T|split; [reflexivity|discriminate]].
Qed.

Lemma adjust_loop_ends ln dt si toks : forall i s r, tracks_ok (a_tracks s) ->
  (a_skip s = true -> hd_error toks = Some (S_ "*x")) ->
  adjust_loop ln dt si toks i s = Some r ->
  tracks_ok (a_tracks r) /\ concat (trackEnds (a_tracks r)) = concat (trackEnds (a_tracks s)) ++ terminators ln i toks.
Proof.
  induction toks as [|t rest IH]; intros i s r T SK H.
  - injection H as <-. cbn [terminators]. rewrite app_nil_r. auto.
  - cbn [adjust_loop] in H. destruct (a_skip s) eqn:SS.
    + specialize (SK eq_refl). cbn [hd_error] in SK. injection SK as ->.
      cbn [terminators]. change (str_eqb (S_ "*x") (S_ "*-")) with false. cbn iota. cbn [app].
      apply IH in H; [exact H|exact T|discriminate].
    + set (inrun := (0 <? a_merge s) && isMerge t) in *.
      set (mc := if inrun then _ else _) in *.
      assert (ME : isMerge t = true -> str_eqb t (S_ "*-") = false).
      { intros E. apply isMerge_spec in E. subst. reflexivity. }
      assert (TOK : forall s0 s'', a_tracks s0 = a_tracks s -> adjust_token ln dt si i t (hd_error rest) s0 = Some s'' ->
                adjust_loop ln dt si rest (S i) s'' = Some r ->
                tracks_ok (a_tracks r) /\
                concat (trackEnds (a_tracks r)) = concat (trackEnds (a_tracks s)) ++ terminators ln i (t :: rest)).
      { intros s0 s'' E0 E1 E2. destruct (adjust_token_ends ln dt si i t rest s0 s'') as (A & B & C); [rewrite E0; exact T|exact E1|].
        destruct (IH _ _ _ A C E2) as (D & E). split; [exact D|].
        rewrite E, B, E0. cbn [terminators]. rewrite <- app_assoc. reflexivity. }
      destruct (inrun && negb _) eqn:R.
      * apply andb_true_iff in R. destruct R as [R _]. unfold inrun in R. apply andb_true_iff in R. destruct R as [_ R].
        cbn [terminators]. rewrite ME by exact R. cbn [app].
        apply IH in H; [exact H|exact T|discriminate].
      * destruct ((0 <? mc) && _).
        -- destruct (mc =? 1); [discriminate|].
           destruct (getMergedSpineInfo _ _ _) as [lab|]; [|discriminate].
           destruct (isMerge t) eqn:M.
           ++ cbn [terminators]. rewrite ME by reflexivity. cbn [app].
              apply IH in H; [exact H|exact T|discriminate].
           ++ destruct (adjust_token _ _ _ _ _ _ _) as [s''|] eqn:E; [|discriminate]. eapply TOK; [|exact E|exact H]. reflexivity.
        -- destruct (adjust_token _ _ _ _ _ _ _) as [s''|] eqn:E; [|discriminate]. eapply TOK; [|exact E|exact H]. reflexivity.
Qed.

Lemma terminators_none ln toks : existsb isManipulatorToken toks = false -> forall i, terminators ln i toks = [].
Proof.
  induction toks as [|t ts IH]; intros H i; [reflexivity|]. cbn [existsb terminators] in *.
  apply orb_false_iff in H. destruct H as [H1 H2].
  destruct (str_eqb t (S_ "*-")) eqn:E; [apply str_eqb_eq in E; subst; discriminate|]. cbn [app]. apply IH. exact H2.
Qed.

(** All the terminators of the spined lines. *)
Fixpoint file_terminators (ln : nat) (lines : list str) : list tokref :=
  match lines with
  | [] => []
  | l :: ls => (if hasSpines l then terminators ln 0 (tokens l) else []) ++ file_terminators (S ln) ls
  end.

Lemma spine_lines_ends ls : forall ln st infos fin, tracks_ok (s_tracks st) ->
  spine_lines ln ls st = Some (infos, fin) ->
  concat (trackEnds (s_tracks fin)) = concat (trackEnds (s_tracks st)) ++ file_terminators ln ls.
Proof.
  induction ls as [|l ls IH]; intros ln st infos fin T H; cbn [spine_lines file_terminators] in *.
  - injection H as <- <-. rewrite app_nil_r. reflexivity.
  - unfold hasSpines. destruct (isGlobalLine l); cbn [negb app]; [eapply IH; eassumption|].
    destruct (spine_line ln (tokens l) st) as [st'|] eqn:E; [|discriminate].
    destruct (spine_lines (S ln) ls st') as [[i1 f1]|] eqn:R; [|discriminate]. injection H as <- <-.
    unfold spine_line in E. destruct (negb _); [discriminate|].
    destruct (existsb isManipulatorToken (tokens l)) eqn:M.
    + unfold adjustSpines in E. destruct (adjust_loop _ _ _ _ _ _) as [r|] eqn:A; [|discriminate].
      injection E as <-. destruct (adjust_loop_ends _ _ _ _ 0 (mkAdj false 0 [] [] (s_tracks st)) _ T ltac:(discriminate) A) as (B & C).
      rewrite (IH _ (mkS (a_type r) (a_info r) (a_tracks r)) _ _ B R). cbn [s_tracks]. rewrite C. cbn [a_tracks]. rewrite <- app_assoc. reflexivity.
    + injection E as <-. rewrite terminators_none by exact M. cbn [app]. eapply IH; eassumption.
Qed.

Lemma init_tracks_ends ln toks : forall j tr, tracks_ok tr ->
  tracks_ok (init_tracks ln j toks tr) /\ concat (trackEnds (init_tracks ln j toks tr)) = concat (trackEnds tr).
Proof.
  induction toks as [|t ts IH]; intros j tr T; cbn [init_tracks]; [auto|].
  destruct (tracks_ok_add (Some (ln, j)) _ T) as (A & B). destruct (IH (S j) _ A) as (C & D). split; [exact C|].
  rewrite D. exact B.
Qed.

Lemma exclusive_no_terminators ln toks : (forall t, In t toks -> isExclusiveInterpretation t = true) ->
  forall i, terminators ln i toks = [].
Proof.
  induction toks as [|t ts IH]; intros H i; [reflexivity|]. cbn [terminators].
  destruct (str_eqb t (S_ "*-")) eqn:E.
  - apply str_eqb_eq in E. subst. specialize (H _ (or_introl eq_refl)). discriminate.
  - cbn [app]. apply IH. intros. apply H. right. assumption.
Qed.

Theorem track_ends_exact lines infos fin : analyzeSpines lines = Some (infos, fin) -> opens_cleanly lines ->
  concat (trackEnds (s_tracks fin)) = file_terminators 0 lines.
Proof.
  unfold analyzeSpines. generalize 0 as ln. revert infos.
  induction lines as [|l ls IH]; intros infos ln H O; [discriminate|].
  cbn [analyzeSpines_from file_terminators] in *. unfold hasSpines. destruct (isGlobalLine l) eqn:G; cbn [negb app].
  - apply (IH infos); [exact H|]. unfold opens_cleanly in *. rewrite spined_cons_global in O by assumption. exact O.
  - destruct (isExclusiveLine l); [|discriminate].
    destruct (spine_lines _ _ _) as [[i1 f1]|] eqn:E; [|discriminate]. injection H as <- <-.
    assert (T0 : tracks_ok (mkTracks [None] [[]])) by (split; [reflexivity|discriminate]).
    destruct (init_tracks_ends ln (tokens l) 0 _ T0) as (A & B).
    rewrite (spine_lines_ends _ _ (init_state ln (tokens l)) _ _ A E). cbn [init_state s_tracks]. rewrite B.
    rewrite exclusive_no_terminators; [reflexivity|].
    intros t Ht. eapply O; [rewrite spined_cons by assumption; reflexivity|exact Ht].
Qed.

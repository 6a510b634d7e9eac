(** The starts and ends of tuplets through the stages of their finding. *)
From Coq Require Import ZArith QArith Lia.
From Verif Require Import PyStr RecipModel RecipProofs DurationModel Pow2Proofs DurationProofs TupletModel PropsTupletGroups TupletProofs.
Local Close Scope Q_scope.

(** * The invariant: items without starts and ends, and blocks with a start at the first
    item and an end at the last, numbered in order. *)
Definition good (q : Q) (c : cell) : Prop :=
  ~ ordinary (c_item c) /\ (c_mul c == q)%Q /\ (0 < c_act c)%Z /\ (inject_Z (c_nor c) == q * inject_Z (c_act c))%Q /\
  is_power_of_two (i_nodots (c_item c) / q) /\ (1 <= c_scale c)%Z.
Definition bare (c : cell) : Prop := c_st c = 0 /\ c_en c = 0.
Definition Block (gr : bool) (k : nat) (b : list cell) : Prop :=
  exists q h m t, b = h :: m ++ [t] /\ (0 < q)%Q /\ c_st h = k /\ c_en h = 0 /\ Forall bare m /\ c_st t = 0 /\ c_en t = k /\
  Forall (fun c => good q c /\ (gr = true -> c_grp c = k)) b.
Inductive WF (gr : bool) : nat -> nat -> list cell -> Prop :=
  | W_nil k : WF gr k k []
  | W_one k k' c l : ordinary (c_item c) -> bare c -> (gr = true -> c_grp c = 0) -> WF gr k k' l -> WF gr k k' (c :: l)
  | W_blk k k' b l : Block gr k b -> WF gr (S k) k' l -> WF gr k k' (b ++ l).
Lemma WF_app gr k k1 k2 a b : WF gr k k1 a -> WF gr k1 k2 b -> WF gr k k2 (a ++ b).
Proof. induction 1; intros W; [exact W| |rewrite <- app_assoc]; cbn; [apply W_one; auto|apply W_blk; auto]. Qed.
Lemma Block_weak k b : Block true k b -> Block false k b.
Proof.
  intros (q & h & m & t & E & Q & A & B & C & D & F & G). exists q, h, m, t. repeat (split; [assumption|]).
  eapply Forall_impl; [|exact G]. intros c [X _]. split; [exact X|discriminate].
Qed.
Lemma WF_weak k k' l : WF true k k' l -> WF false k k' l.
Proof. induction 1; [apply W_nil|apply W_one; auto; discriminate|apply W_blk; [apply Block_weak|]; assumption]. Qed.
Lemma good_eq q q' c : (q == q')%Q -> good q c -> good q' c.
Proof.
  intros E (A & B & C & D & F & G). split; [exact A|]. split; [rewrite <- E; exact B|]. split; [exact C|]. split; [rewrite <- E; exact D|].
  split; [|exact G]. eapply pow2_eq; [|exact F]. rewrite E. reflexivity.
Qed.

(** * Renumbering and the first steps. *)
Lemma renumber_app : forall a k b, Forall bare a -> renumber k (a ++ b) = a ++ renumber k b.
Proof. induction a as [|c a IH]; intros k b F; [reflexivity|]. inversion F as [|? ? [S E] F']; subst. cbn. rewrite S, E. cbn. f_equal. apply IH. exact F'. Qed.
Lemma set_st_id c : set_st c (c_st c) = c. Proof. destruct c; reflexivity. Qed.
Lemma set_en_id c : set_en c (c_en c) = c. Proof. destruct c; reflexivity. Qed.
Lemma renumber_id gr k k' l : WF gr (S k) k' l -> renumber k l = l.
Proof.
  intros W. remember (S k) as k1 eqn:K. revert k K. induction W as [k1|k1 k' c l O B G W IH|k1 k' b l B W IH]; intros k K; [reflexivity| |].
  - change (c :: l) with ([c] ++ l). rewrite renumber_app by (constructor; [exact B|constructor]). rewrite IH by exact K. reflexivity.
  - destruct B as (q & h & m & t & E & Q & A & HB & C & D & F & _). subst b. rewrite K in A, F. cbn. rewrite A. cbn. rewrite <- app_assoc. rewrite renumber_app by exact C. cbn.
    rewrite D, F. cbn. rewrite (IH (S k)) by congruence. rewrite <- A at 1. rewrite set_st_id. rewrite <- F at 1. rewrite set_en_id. reflexivity.
Qed.
Lemma positive_good q c : good q c -> positive_act c = c.
Proof. intros (_ & _ & A & _). unfold positive_act. destruct (c_act c <? 0)%Z eqn:E; [apply Z.ltb_lt in E; lia|reflexivity]. Qed.
Lemma positive_fields c : c_item (positive_act c) = c_item c /\ c_st (positive_act c) = c_st c /\ c_en (positive_act c) = c_en c /\
  c_grp (positive_act c) = c_grp c /\ c_force (positive_act c) = c_force c /\ c_mul (positive_act c) = c_mul c.
Proof. unfold positive_act. destruct (c_act c <? 0)%Z; cbn; tauto. Qed.
Lemma map_id_Forall {A} (f : A -> A) l : Forall (fun x => f x = x) l -> map f l = l.
Proof. induction 1; cbn; congruence. Qed.
Lemma positive_WF gr k k' l : WF gr k k' l -> WF gr k k' (map positive_act l).
Proof.
  induction 1 as [k|k k' c l O B G W IH|k k' b l B W IH]; [apply W_nil| |].
  - cbn. destruct (positive_fields c) as (P1 & P2 & P3 & P4 & _). apply W_one; [rewrite P1; exact O|unfold bare; rewrite P2, P3; exact B|rewrite P4; exact G|exact IH].
  - rewrite map_app. rewrite (map_id_Forall positive_act b); [apply W_blk; assumption|]. destruct B as (q & h & m & t & _ & _ & _ & _ & _ & _ & _ & F).
    eapply Forall_impl; [|exact F]. intros c [X _]. apply (positive_good q). exact X.
Qed.
Lemma set_grp_id c : set_grp c (c_grp c + 0) = c. Proof. rewrite Nat.add_0_r. destruct c; reflexivity. Qed.
Lemma adjust_id : forall l p, (forall c d, In c (p :: l) -> In d (p :: l) -> c_grp c = c_grp d -> c_act c = c_act d /\ c_nor c = c_nor d) -> adjust 0 p l = p :: l.
Proof.
  induction l as [|x l IH]; intros p H; [reflexivity|]. cbn [adjust]. assert (T : adjust 0 x l = x :: l). { apply IH. intros c d C D. apply H; right; assumption. }
  rewrite set_grp_id, T. destruct (no_ratio x || no_ratio p); [reflexivity|]. destruct (_ || _) eqn:E; [|reflexivity].
  destruct (c_grp x =? c_grp p) eqn:G; [|reflexivity]. exfalso. apply Nat.eqb_eq in G.
  destruct (H x p) as [A N]; [right; left; reflexivity|left; reflexivity|exact G|]. rewrite A, N, !Z.eqb_refl in E. discriminate.
Qed.

(** * Starts, ends and ratios of the groups. *)
Lemma Grouped_length pre num l gs : Grouped pre num l gs -> length gs = length l.
Proof. induction 1; cbn; [reflexivity|f_equal; assumption|]. rewrite !app_length. lia. Qed.
Lemma Grouped_range pre num l gs : Grouped pre num l gs -> Forall (fun g => fst g = 0 \/ num <= fst g) gs.
Proof.
  induction 1 as [|pre num x l gs O G IH|pre num x s t f gs1 gs2 NO EN L F FL G IH]; [constructor|constructor; [left; reflexivity|exact IH]|].
  apply Forall_app. split; eapply Forall_impl; [| exact F | | exact IH]; cbn; [intros g ->; lia|intros g [-> | X]; lia].
Qed.
Lemma cells_item : forall gs l seen, length gs = length l -> map c_item (cells seen gs l) = l.
Proof.
  induction gs as [|[g f] gs IH]; intros [|x l] seen L; try discriminate; [reflexivity|]. cbn in L. cbn [cells].
  destruct (if g =? 0 then _ else ratio x) as [[a n] m]. cbn. f_equal. apply IH. lia.
Qed.
Lemma cells_grp : forall gs l seen, length gs = length l -> map c_grp (cells seen gs l) = map fst gs /\ map c_force (cells seen gs l) = map snd gs.
Proof.
  induction gs as [|[g f] gs IH]; intros [|x l] seen L; try discriminate; [split; reflexivity|]. cbn in L. cbn [cells].
  destruct (if g =? 0 then _ else ratio x) as [[a n] m]. cbn. destruct (IH l (g :: seen)) as [A B]; [lia|]. rewrite A, B. split; reflexivity.
Qed.
Definition rated (c : cell) : Prop :=
  (c_act c, c_nor c, c_mul c) = (if c_grp c =? 0 then ((-1)%Z, (-1)%Z, 1%Q) else ratio (c_item c)) /\ c_scale c = 1%Z.
Lemma cells_rated : forall gs l seen, Forall rated (cells seen gs l).
Proof.
  induction gs as [|[g f] gs IH]; intros [|x l] seen; try constructor. cbn [cells]. destruct (if g =? 0 then _ else ratio x) as [[a n] m] eqn:E.
  constructor; [|apply IH]. split; [cbn; rewrite E; reflexivity|reflexivity].
Qed.
Lemma cells_in gs l seen c : In c (cells seen gs l) -> In (c_item c, c_grp c) (combine l (map fst gs)).
Proof.
  revert l seen. induction gs as [|[g f] gs IH]; intros [|x l] seen I; try contradiction. cbn [cells] in I. destruct (if g =? 0 then _ else ratio x) as [[a n] m]. cbn. destruct I as [<- | I]; [left; reflexivity|right]. eapply IH. exact I.
Qed.
Lemma existsb_none {A} (f : A -> bool) l : (forall x, In x l -> f x = false) -> existsb f l = false.
Proof. intros H. apply not_true_is_false. intros E. apply existsb_exists in E. destruct E as (x & I & X). rewrite (H x I) in X. discriminate. Qed.
Lemma cells_block num : forall s gs1 seen t gs2, num <> 0 -> s <> [] -> length gs1 = length s -> Forall (fun g => fst g = num) gs1 -> In num seen ->
  Forall (fun g => fst g <> num) gs2 -> exists m e seen', cells seen (gs1 ++ gs2) (s ++ t) = m ++ e :: cells seen' gs2 t /\ Forall bare m /\
  c_st e = 0 /\ c_en e = num /\ map c_item (m ++ [e]) = s /\ Forall (fun c => c_grp c = num) (m ++ [e]) /\ (forall g, In g seen' -> g = num \/ In g seen).
Proof.
  induction s as [|x s IH]; intros gs1 seen t gs2 N0 NS L F I R; [contradiction|]. destruct gs1 as [|[g f] gs1]; [discriminate|]. pose proof F as F0. apply Forall_cons_iff in F0. destruct F0 as [F1 F2]. cbn in F1. subst g.
  cbn [app cells]. replace (num =? 0) with false by (symmetry; apply Nat.eqb_neq; exact N0). cbn [orb].
  replace (existsb (Nat.eqb num) seen) with true by (symmetry; apply existsb_exists; exists num; split; [exact I|apply Nat.eqb_refl]).
  destruct (ratio x) as [[a n] m] eqn:RX. destruct s as [|y s].
  - destruct gs1; [|discriminate]. cbn [app]. rewrite (existsb_none _ gs2).
    + exists [], (mkC x num f 0 num a n m 1), (num :: seen). split; [reflexivity|]. split; [constructor|]. repeat (split; [reflexivity|]). split; [repeat constructor|].
      intros g [<- | G]; [left; reflexivity|right; exact G].
    + intros h H. rewrite Forall_forall in R. apply Nat.eqb_neq, R, H.
  - destruct gs1 as [|h gs1]; [discriminate|]. destruct (IH (h :: gs1) (num :: seen) t gs2) as (m' & e & seen' & E & B & S & EN & MI & G & SE); try assumption; [discriminate|cbn in *; lia|left; reflexivity|].
    rewrite E. replace (existsb (fun h0 => fst h0 =? num) ((h :: gs1) ++ gs2)) with true.
    + exists (mkC x num f 0 0 a n m 1 :: m'), e, seen'. split; [reflexivity|]. split; [constructor; [split; reflexivity|exact B]|]. split; [exact S|]. split; [exact EN|].
      split; [cbn; f_equal; exact MI|]. split; [constructor; [reflexivity|exact G]|]. intros g X. destruct (SE g X) as [-> | [<- | Y]]; auto.
    + symmetry. apply existsb_exists. exists h. split; [left; reflexivity|]. apply Forall_cons_iff in F2. destruct F2 as [F2 _]. apply Nat.eqb_eq. exact F2.
Qed.
(** What is asked of the groups: two notes at least, shorter than whole notes, with
    lengths that differ by powers of two. *)
Definition fit (l : list item) (ns : list nat) : Prop :=
  (forall g, g <> 0 -> count_occ Nat.eq_dec ns g <> 1) /\
  (forall x g, In (x, g) (combine l ns) -> g <> 0 -> short x) /\
  (forall x y g, In (x, g) (combine l ns) -> In (y, g) (combine l ns) -> g <> 0 -> related x y).
Lemma combine_app {A B} (a : list A) : forall a' (b b' : list B), length a = length b -> combine (a ++ a') (b ++ b') = combine a b ++ combine a' b'.
Proof. induction a as [|x a IH]; intros a' [|y b] b' L; try discriminate; [reflexivity|]. cbn. f_equal. apply IH. cbn in L. lia. Qed.
Lemma rated_good q x c : rated c -> c_grp c <> 0 -> ~ ordinary (c_item c) -> short x -> short (c_item c) -> related x (c_item c) -> (snd (ratio x) == q)%Q -> good q c.
Proof.
  intros [R SC] N NO SX SY RE Q. destruct (ratio_spec x SX) as (m & E & M & P & K). rewrite E in Q. cbn in Q. destruct (K _ SY RE) as (m' & E' & M').
  replace (c_grp c =? 0) with false in R by (symmetry; apply Nat.eqb_neq; exact N). rewrite E' in R. injection R as R1 R2 R3.
  split; [exact NO|]. split; [rewrite R3, M'; exact Q|]. split; [rewrite R1; reflexivity|]. split; [|split].
  - rewrite R1, R2, <- Q, <- M'. rewrite <- (qfrac_red m') at 2. unfold Qeq. cbn. lia.
  - destruct (ratio_spec _ SY) as (m2 & E2 & _ & P2 & _). rewrite E' in E2. injection E2 as _ _ <-. eapply pow2_eq; [|exact P2]. rewrite M', Q. reflexivity.
  - rewrite SC. discriminate.
Qed.
Lemma cells_WF pre num l gs : Grouped pre num l gs -> 0 < num -> fit l (map fst gs) -> forall seen, (forall g, In g seen -> g < num) ->
  exists k', WF true num k' (cells seen gs l).
Proof.
  induction 1 as [|pre num x l gs O G IH|pre num x s t f gs1 gs2 NO EN L F FL G IH]; intros N0 (F1 & F2 & F3) seen SE.
  - exists num. apply W_nil.
  - destruct (IH N0) with (seen := 0 :: seen) as [k' W].
    + split; [|split].
      * intros g N. specialize (F1 g N). destruct g; [congruence|exact F1].
      * intros y g I. apply F2. right. exact I.
      * intros y z g I J. apply F3; right; assumption.
    + intros g [<- | I]; [exact N0|apply SE; exact I].
    + exists k'. cbn [cells Nat.eqb orb]. apply W_one; [exact O|split; reflexivity|reflexivity|exact W].
  - assert (NS : s <> []).
    { intros ->. cbn in L. destruct gs1 as [|g [|]]; try discriminate. inversion F as [|? ? E _]; subst. apply (F1 (fst g)); [lia|]. change (map fst ([g] ++ gs2)) with (fst g :: map fst gs2). rewrite count_occ_cons_eq by reflexivity. f_equal.
      apply count_occ_not_In. intros I. apply in_map_iff in I. destruct I as (h & E & I). apply Grouped_range in G. rewrite Forall_forall in G. specialize (G h I). lia. }
    destruct gs1 as [|[g f0] gs1]; [discriminate|]. pose proof F as F0. apply Forall_cons_iff in F0. destruct F0 as [E F']. cbn in E. subst g.
    assert (R : Forall (fun g => fst g <> num) gs2). { apply Grouped_range in G. eapply Forall_impl; [|exact G]. cbn. intros g. lia. }
    destruct (cells_block num s gs1 (num :: seen) t gs2) as (m & e & seen' & C & B & S & E & MI & GR & SE'); try assumption; [lia|cbn in L; lia|left; reflexivity|].
    destruct (IH ltac:(lia)) with (seen := seen') as [k' W].
    { assert (LE : length (x :: s) = length (map fst ((num, f0) :: gs1))) by (rewrite map_length; cbn in *; lia).
      change (fit (x :: s ++ t) (map fst (((num, f0) :: gs1) ++ gs2))) with (fit ((x :: s) ++ t) (map fst (((num, f0) :: gs1) ++ gs2))) in *.
      rewrite map_app in F1, F2, F3. change (x :: s ++ t) with ((x :: s) ++ t) in F2, F3. rewrite combine_app in F2, F3 by exact LE. split; [|split].
      - intros g N. specialize (F1 g N). rewrite count_occ_app in F1. destruct (Nat.eq_dec g num) as [-> | D].
        + intros X. assert (Y : In num (map fst gs2)) by (apply (count_occ_In Nat.eq_dec); lia). apply in_map_iff in Y. destruct Y as (h & E1 & I). rewrite Forall_forall in R. exact (R h I E1).
        + replace (count_occ Nat.eq_dec (map fst ((num, f0) :: gs1)) g) with 0 in F1; [exact F1|]. symmetry. apply count_occ_not_In. intros I. apply in_map_iff in I. destruct I as (h & E1 & I).
          rewrite Forall_forall in F. specialize (F h I). congruence.
      - intros y g I. apply F2. apply in_or_app. right. exact I.
      - intros y z g I J. apply F3; apply in_or_app; right; assumption. }
    { intros g I. destruct (SE' g I) as [-> | [<- | X]]; [lia|lia|]. specialize (SE g X). lia. }
    exists k'. cbn [app cells] in C |- *. replace (num =? 0) with false by (symmetry; apply Nat.eqb_neq; lia). cbn [orb].
    rewrite (existsb_none _ seen) by (intros g I; apply Nat.eqb_neq; specialize (SE g I); lia).
    replace (existsb (fun h => fst h =? num) (gs1 ++ gs2)) with true.
    2:{ symmetry. destruct s as [|y s]; [contradiction|]. destruct gs1 as [|h gs1]; [discriminate|]. cbn. inversion F' as [|? ? E1 _]; subst. rewrite E1, Nat.eqb_refl. reflexivity. }
    pose proof (cells_rated (((num, f0) :: gs1) ++ gs2) (x :: s ++ t) seen) as RA.
    cbn [app cells] in RA. replace (num =? 0) with false in RA by (symmetry; apply Nat.eqb_neq; lia). cbn [orb] in RA.
    pose proof (fun c => cells_in (((num, f0) :: gs1) ++ gs2) (x :: s ++ t) seen c) as IN. cbn [app cells] in IN. replace (num =? 0) with false in IN by (symmetry; apply Nat.eqb_neq; lia). cbn [orb] in IN.
    destruct (ratio x) as [[a n] mu] eqn:RX. rewrite C in *. set (h := mkC x num f0 _ _ _ _ _ _) in RA, IN. 
    match goal with |- WF true num k' (?h0 :: _) => set (h1 := h0) end.
    replace (h1 :: m ++ e :: cells seen' gs2 t) with ((h1 :: m ++ [e]) ++ cells seen' gs2 t) by (cbn; rewrite <- app_assoc; reflexivity).
    apply W_blk; [|exact W].
    assert (SX : short x). { apply (F2 x num); [left; reflexivity|lia]. }
    destruct (ratio_spec x SX) as (q & EQ & QP & _ & _).
    exists q, h1, m, e. split; [reflexivity|]. split; [exact QP|]. repeat (split; [try reflexivity; assumption|]).
    apply Forall_forall. intros c I. 
    assert (RC : rated c /\ c_grp c = num /\ In (c_item c, num) (combine (x :: s ++ t) (map fst (((num, f0) :: gs1) ++ gs2))) /\ In (c_item c) (x :: s)).
    { destruct I as [<- | I].
      - split; [split; [|reflexivity]; cbn; replace (num =? 0) with false by (symmetry; apply Nat.eqb_neq; lia); symmetry; exact RX|]. split; [reflexivity|]. split; left; reflexivity.
      - rewrite Forall_forall in GR. pose proof (GR c I) as GC. apply Forall_cons_iff in RA. destruct RA as [_ RA']. rewrite Forall_forall in RA'. split; [apply RA'; apply in_app_iff in I; apply in_app_iff; destruct I as [I | [<- | []]]; [left; exact I|right; left; reflexivity]|].
        split; [exact GC|]. rewrite <- GC at 1. split; [|right; rewrite <- MI; apply in_map; exact I].
        apply IN. right. apply in_app_iff in I. apply in_app_iff. destruct I as [I | [<- | []]]; [left; exact I|right; left; reflexivity]. }
    destruct RC as (RC & GC & IC & XC). split; [|intros _; exact GC].
    apply (rated_good q x); [exact RC|lia| |exact SX| | |].
    + rewrite Forall_forall in NO. apply NO. exact XC.
    + apply (F2 (c_item c) num); [exact IC|lia].
    + apply (F3 x (c_item c) num); [left; reflexivity|exact IC|lia].
    + rewrite EQ. reflexivity.
Qed.

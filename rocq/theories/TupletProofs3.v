(** Merging of tuplets within a beam, new groups, and scaling. *)
From Coq Require Import ZArith QArith Lia.
From Verif Require Import PyStr RecipModel RecipProofs DurationModel Pow2Proofs DurationProofs TupletModel PropsTupletGroups TupletProofs TupletProofs2.
Local Close Scope Q_scope.

Lemma Block_last gr k p c x : Block gr k (p ++ c :: x) -> c_en c <> 0 -> x = [].
Proof.
  intros (q & h & m & t & E & Q & A & B & C & D & F & _) N. destruct x as [|y x] using rev_ind; [reflexivity|clear IHx]. exfalso.
  rewrite app_comm_cons, app_assoc, app_comm_cons in E. apply app_inj_tail in E. destruct E as [E _].
  assert (I : In c (h :: m)) by (rewrite <- E; apply in_elt). destruct I as [<- | I]; [contradiction|]. rewrite Forall_forall in C. destruct (C c I). contradiction.
Qed.
Lemma WF_split gr k k' l : WF gr k k' l -> forall p c r, l = p ++ c :: r -> c_en c <> 0 -> exists k1 p' b, p ++ [c] = p' ++ b /\ WF gr k k1 p' /\ Block gr k1 b /\ WF gr (S k1) k' r.
Proof.
  induction 1 as [k|k k' c0 l O B G W IH|k k' b l B W IH]; intros p c r E N.
  - destruct p; discriminate.
  - destruct p as [|a p]; injection E as -> E.
    + destruct B. contradiction.
    + destruct (IH p c r E N) as (k1 & p' & b & E1 & W1 & B1 & W2). exists k1, (a :: p'), b. cbn. rewrite E1. split; [reflexivity|]. split; [apply W_one; assumption|]. split; assumption.
  - assert (X : forall p1, p = b ++ p1 -> l = p1 ++ c :: r -> exists k1 p' b0, p ++ [c] = p' ++ b0 /\ WF gr k k1 p' /\ Block gr k1 b0 /\ WF gr (S k1) k' r).
    { intros p1 EP EL. destruct (IH p1 c r EL N) as (k1 & p' & b1 & E1 & W1 & B1 & W2). exists k1, (b ++ p'), b1. rewrite EP, <- !app_assoc, E1. split; [reflexivity|]. split; [apply W_blk; assumption|]. split; assumption. }
    apply app_eq_app in E. destruct E as (x & [[EB ER] | [EP EL]]).
    + destruct x as [|y x].
      * apply (X []); [rewrite app_nil_r in *; congruence|symmetry; exact ER].
      * injection ER as <- ER. rewrite EB in B. pose proof (Block_last _ _ _ _ _ B N) as ->. cbn in ER. subst r. exists k, [], b. rewrite EB. split; [reflexivity|]. split; [apply W_nil|]. split; assumption.
    + apply (X x); assumption.
Qed.
Lemma Block_head gr k b : Block gr k b -> exists h b', b = h :: b' /\ c_st h = k.
Proof. intros (q & h & m & t & E & Q & A & _). exists h, (m ++ [t]). split; assumption. Qed.
Lemma WF_start gr k k' d f : 0 < k -> WF gr k k' (d :: f) -> c_st d <> 0 -> exists b r, d :: f = b ++ r /\ Block gr k b /\ WF gr (S k) k' r.
Proof.
  intros K W N. inversion W as [|? ? c l O B G W' |? ? b l B W' E]; subst; [destruct B; contradiction|]. exists b, l. split; [reflexivity|]. split; assumption.
Qed.
Lemma setBack_app k a n : forall u h v, Forall (fun c => c_st c <> k) u -> c_st h = k -> setBack k a n (u ++ h :: v) = map (fun c => set_nums c a n) (u ++ [h]) ++ v.
Proof.
  induction u as [|c u IH]; intros h v F H; cbn; [rewrite H, Nat.eqb_refl; reflexivity|]. apply Forall_cons_iff in F; destruct F as [C F'].
  rewrite (proj2 (Nat.eqb_neq _ _) C). rewrite IH by assumption. reflexivity.
Qed.
Lemma setFwd_app k a n : k <> 0 -> forall u t v, Forall (fun c => c_en c <> k) u -> c_en t = k -> setFwd k a n (u ++ t :: v) = map (fun c => set_nums c a n) (u ++ [t]) ++ v.
Proof.
  intros K. induction u as [|c u IH]; intros t v F H; cbn.
  - rewrite H, Nat.eqb_refl, (proj2 (Nat.eqb_neq _ _) K). reflexivity.
  - apply Forall_cons_iff in F; destruct F as [C F']. rewrite (proj2 (Nat.eqb_neq (c_en c) _) C), andb_false_r. rewrite IH by (assumption || reflexivity). reflexivity.
Qed.
Lemma lower_bare c : bare c -> lower c = c.
Proof. intros [S E]. unfold lower. rewrite S. cbn. rewrite E. reflexivity. Qed.
Lemma lower_fields c : c_item (lower c) = c_item c /\ c_mul (lower c) = c_mul c /\ c_act (lower c) = c_act c /\ c_nor (lower c) = c_nor c /\ c_scale (lower c) = c_scale c /\
  c_force (lower c) = c_force c /\ c_st (lower c) = c_st c - 1 /\ c_en (lower c) = c_en c - 1.
Proof.
  unfold lower. destruct (c_st c =? 0) eqn:S; cbn; destruct (c_en c =? 0) eqn:E; cbn; repeat split; try reflexivity; apply Nat.eqb_eq in S || idtac; apply Nat.eqb_eq in E || idtac; lia.
Qed.
Lemma good_lower q c : good q c -> good q (lower c).
Proof. unfold good. destruct (lower_fields c) as (-> & -> & -> & -> & -> & _). tauto. Qed.
Lemma Block_lower k b : Block false (S k) b -> Block false k (map lower b).
Proof.
  intros (q & h & m & t & E & Q & A & B & C & D & F & G). exists q, (lower h), m, (lower t). subst b. split.
  { cbn. rewrite map_app. cbn. f_equal. f_equal. apply map_id_Forall. eapply Forall_impl; [|exact C]. intros c. apply lower_bare. }
  destruct (lower_fields h) as (_ & _ & _ & _ & _ & _ & S1 & E1). destruct (lower_fields t) as (_ & _ & _ & _ & _ & _ & S2 & E2).
  split; [exact Q|]. split; [lia|]. split; [lia|]. split; [exact C|]. split; [lia|]. split; [lia|].
  apply Forall_forall. intros c I. apply in_map_iff in I. destruct I as (c0 & <- & I). rewrite Forall_forall in G. split; [apply good_lower, (G c0 I)|discriminate].
Qed.
Lemma WF_lower k k' l : WF false (S k) k' l -> exists k2, WF false k k2 (map lower l).
Proof.
  intros W. remember (S k) as k1 eqn:K. revert k K. induction W as [k1|k1 k' c l O B G W IH|k1 k' b l B W IH]; intros k K.
  - exists k. apply W_nil.
  - destruct (IH k K) as [k2 H]. exists k2. cbn. rewrite (lower_bare c B). apply W_one; assumption.
  - destruct (IH (S k)) as [k2 H]; [congruence|]. exists k2. rewrite map_app. apply W_blk; [apply Block_lower; rewrite <- K; exact B|exact H].
Qed.
Lemma WF_st_ge gr k k' l : WF gr k k' l -> Forall (fun c => c_st c = 0 \/ k <= c_st c) l.
Proof.
  induction 1 as [k|k k' c l O B G W IH|k k' b l B W IH]; [constructor|constructor; [left; apply B|exact IH]|].
  apply Forall_app. split.
  - destruct B as (q & h & m & t & E & Q & A & _ & C & D & _). subst b. constructor; [right; lia|]. apply Forall_app. split; [eapply Forall_impl; [|exact C]; intros c [X _]; left; exact X|]. constructor; [left; exact D|constructor].
  - eapply Forall_impl; [|exact IH]. cbn. intros c. lia.
Qed.
Lemma good_nums q c a n : good q c -> (0 < a)%Z -> (inject_Z n == q * inject_Z a)%Q -> good q (set_nums c a n).
Proof. intros (A & B & C & D & E & F) P N. repeat (split; [assumption|]). exact F. Qed.
Lemma good_st q c s : good q c -> good q (set_st c s). Proof. exact (fun x => x). Qed.
Lemma good_en q c s : good q c -> good q (set_en c s). Proof. exact (fun x => x). Qed.

(** One step of the merging. *)
Definition kept (c c' : cell) : Prop := c_item c' = c_item c /\ c_mul c' = c_mul c /\ (c_st c' = 0 <-> c_st c = 0).
Lemma kept_refl l : Forall2 kept l l.
Proof. induction l; constructor; [unfold kept; tauto|assumption]. Qed.
Lemma kept_nums a n l : Forall2 kept l (map (fun c => set_nums c a n) l).
Proof. induction l; constructor; [unfold kept; cbn; tauto|assumption]. Qed.
Lemma mergeAt_short ib l i : length l <= S i -> mergeAt ib l i = l.
Proof. intros L. unfold mergeAt. rewrite (skipn_all2 l) by exact L. destruct (rev (firstn (S i) l)); reflexivity. Qed.
Definition cond (ib : list bool) (i : nat) (c d : cell) : bool := nth i ib false && negb (c_en c =? 0) && negb (c_st d =? 0) && Qeq_bool (c_mul c) (c_mul d).
Lemma mergeAt_at ib p c d f : mergeAt ib (p ++ c :: d :: f) (length p) =
  if cond ib (length p) c d then
    let a := (c_act c + c_act d)%Z in let n := (c_nor c + c_nor d)%Z in
    rev (on_hd (fun c => set_en c 0) (setBack (c_en c) a n (c :: rev p))) ++ on_tl lower (on_hd (fun d => set_st d 0) (setFwd (c_st d) a n (d :: f)))
  else p ++ c :: d :: f.
Proof.
  unfold mergeAt, cond.
  replace (firstn (S (length p)) (p ++ c :: d :: f)) with (p ++ [c]).
  2:{ rewrite firstn_app, firstn_all2 by lia. replace (S (length p) - length p) with 1 by lia. reflexivity. }
  replace (skipn (S (length p)) (p ++ c :: d :: f)) with (d :: f).
  2:{ rewrite skipn_app, skipn_all2 by lia. replace (S (length p) - length p) with 1 by lia. reflexivity. }
  rewrite rev_app_distr. reflexivity.
Qed.
Lemma good_Forall_nums gr k q a n b : (0 < a)%Z -> (inject_Z n == q * inject_Z a)%Q -> Forall (fun c => good q c /\ (gr = true -> c_grp c = k)) b ->
  Forall (fun c => good q c) (map (fun c => set_nums c a n) b).
Proof. intros P N F. apply Forall_forall. intros c I. apply in_map_iff in I. destruct I as (c0 & <- & I). rewrite Forall_forall in F. apply good_nums; [apply (F c0 I)|exact P|exact N]. Qed.
Lemma merge_step ib k' p c d f : WF false 1 k' (p ++ c :: d :: f) -> cond ib (length p) c d = true ->
  exists k2, WF false 1 k2 (mergeAt ib (p ++ c :: d :: f) (length p)) /\
  exists p' c' d' f', mergeAt ib (p ++ c :: d :: f) (length p) = p' ++ c' :: d' :: f' /\ Forall2 kept p p' /\ kept c c' /\
    c_item d' = c_item d /\ c_mul d' = c_mul d /\ c_st d' = 0 /\ Forall2 kept f f'.
Proof.
  intros W CO. rewrite mergeAt_at, CO. cbv zeta. unfold cond in CO. rewrite !andb_true_iff, !negb_true_iff, !Nat.eqb_neq in CO. destruct CO as [[[_ EN] ST] MU]. apply Qeq_bool_eq in MU.
  destruct (WF_split false 1 k' _ W p c (d :: f) eq_refl EN) as (k1 & p1 & b1 & E1 & W1 & B1 & W2).
  assert (K1 : 0 < k1). { clear - W1. assert (H : forall k k' l, WF false k k' l -> k <= k') by (induction 1; lia). apply H in W1. lia. }
  destruct (WF_start false (S k1) k' d f ltac:(lia) W2 ST) as (b2 & r & E2 & B2 & W3). clear W2.
  destruct B1 as (q & h1 & m1 & t1 & EB1 & Q1 & SH1 & EH1 & M1 & ST1 & ET1 & G1). destruct B2 as (q2 & h2 & m2 & t2 & EB2 & Q2 & SH2 & EH2 & M2 & ST2 & ET2 & G2).
  subst b1 b2. rewrite app_comm_cons, app_assoc in E1. apply app_inj_tail in E1. destruct E1 as [-> ->]. cbn in E2. injection E2 as -> ->.
  rewrite ET1, SH2.
  assert (GC : good q t1) by (rewrite Forall_forall in G1; apply G1; right; apply in_elt). assert (GD : good q2 h2) by (inversion G2 as [|? ? X _]; apply X).
  assert (QQ : (q2 == q)%Q). { destruct GC as (_ & X & _). destruct GD as (_ & Y & _). rewrite <- X, <- Y. symmetry. exact MU. }
  set (a := (c_act t1 + c_act h2)%Z). set (n := (c_nor t1 + c_nor h2)%Z).
  assert (A0 : (0 < a)%Z). { destruct GC as (_ & _ & X & _). destruct GD as (_ & _ & Y & _). unfold a. lia. }
  assert (AN : (inject_Z n == q * inject_Z a)%Q).
  { unfold a, n. rewrite !inject_Z_plus. destruct GC as (_ & _ & _ & X & _). destruct GD as (_ & _ & _ & Y & _). rewrite X, Y, QQ. ring. }
  set (sn := fun c => set_nums c a n).
  assert (SB : setBack k1 a n (t1 :: rev (p1 ++ h1 :: m1)) = sn t1 :: map sn (rev m1) ++ sn h1 :: rev p1).
  { rewrite rev_app_distr. cbn [rev]. rewrite <- !app_assoc. cbn [app]. change (t1 :: rev m1 ++ h1 :: rev p1) with ((t1 :: rev m1) ++ h1 :: rev p1). rewrite setBack_app.
    - cbn. rewrite map_app, <- app_assoc. reflexivity.
    - constructor; [lia|]. apply Forall_rev. eapply Forall_impl; [|exact M1]. intros c [X _]. lia.
    - exact SH1. }
  assert (SF : setFwd (S k1) a n (h2 :: (m2 ++ [t2]) ++ r) = sn h2 :: map sn m2 ++ sn t2 :: r).
  { rewrite <- app_assoc. cbn [app]. change (h2 :: m2 ++ t2 :: r) with ((h2 :: m2) ++ t2 :: r). rewrite setFwd_app.
    - cbn. rewrite map_app, <- app_assoc. reflexivity.
    - lia.
    - constructor; [lia|]. eapply Forall_impl; [|exact M2]. intros c [_ X]. lia.
    - exact ET2. }
  rewrite SB, SF. cbn [on_hd on_tl]. cbn [rev]. rewrite rev_app_distr. cbn [rev]. rewrite map_rev, !rev_involutive. rewrite <- !app_assoc. cbn [app].
  rewrite map_app. cbn [map].
  assert (BL : Block false k1 (sn h1 :: (map sn m1 ++ set_en (sn t1) 0 :: set_st (sn h2) 0 :: map sn m2) ++ [lower (sn t2)])).
  { exists q, (sn h1), (map sn m1 ++ set_en (sn t1) 0 :: set_st (sn h2) 0 :: map sn m2), (lower (sn t2)). split; [reflexivity|]. split; [exact Q1|]. split; [exact SH1|]. split; [exact EH1|].
    destruct (lower_fields (sn t2)) as (_ & _ & _ & _ & _ & _ & S2 & E2). cbn in S2, E2.
    split; [|split; [lia|split; [lia|]]].
    - apply Forall_app. split; [apply Forall_forall; intros c I; apply in_map_iff in I; destruct I as (c0 & <- & I); rewrite Forall_forall in M1; exact (M1 c0 I)|].
      constructor; [split; [exact ST1|reflexivity]|]. constructor; [split; [reflexivity|exact EH2]|]. apply Forall_forall; intros c I; apply in_map_iff in I; destruct I as (c0 & <- & I); rewrite Forall_forall in M2; exact (M2 c0 I).
    - assert (P1 := good_Forall_nums false k1 q a n _ A0 AN G1). assert (G2' : Forall (fun c => good q c /\ (false = true -> c_grp c = k1)) (h2 :: m2 ++ [t2])).
      { eapply Forall_impl; [|exact G2]. cbn. intros c [X _]. split; [apply (good_eq q2); assumption|discriminate]. }
      assert (P2 := good_Forall_nums false k1 q a n _ A0 AN G2'). cbn in P1, P2. rewrite map_app in P1, P2.
      apply Forall_cons_iff in P1. destruct P1 as [P11 P12]. apply Forall_app in P12. destruct P12 as [P12 P13]. apply Forall_cons_iff in P13. destruct P13 as [P13 _].
      apply Forall_cons_iff in P2. destruct P2 as [P21 P22]. apply Forall_app in P22. destruct P22 as [P22 P23]. apply Forall_cons_iff in P23. destruct P23 as [P23 _].
      assert (AUX : forall l, Forall (good q) l -> Forall (fun c => good q c /\ (false = true -> c_grp c = k1)) l) by (intros l; apply Forall_impl; intros c X; split; [exact X|discriminate]).
      apply AUX. constructor; [exact P11|]. apply Forall_app. split; [|constructor; [apply good_lower; exact P23|constructor]].
      apply Forall_app. split; [exact P12|]. constructor; [apply good_en; exact P13|]. constructor; [apply good_st; exact P21|exact P22]. }
  destruct (WF_lower (S k1) k' r W3) as [k2 WL]. exists k2.
  assert (MM : map lower (map sn m2) = map sn m2). { apply map_id_Forall. apply Forall_forall. intros c I. apply in_map_iff in I. destruct I as (c0 & <- & I). rewrite Forall_forall in M2. apply lower_bare. exact (M2 c0 I). }
  rewrite MM. split.
  - apply (WF_app false 1 k1 k2 p1); [exact W1|].
    replace (sn h1 :: map sn m1 ++ set_en (sn t1) 0 :: set_st (sn h2) 0 :: map sn m2 ++ lower (sn t2) :: map lower r) with
      ((sn h1 :: (map sn m1 ++ set_en (sn t1) 0 :: set_st (sn h2) 0 :: map sn m2) ++ [lower (sn t2)]) ++ map lower r) by (cbn; rewrite <- !app_assoc; cbn; rewrite <- ?app_assoc; reflexivity).
    apply W_blk; assumption.
  - exists (p1 ++ sn h1 :: map sn m1), (set_en (sn t1) 0), (set_st (sn h2) 0), (map sn m2 ++ lower (sn t2) :: map lower r).
    split; [rewrite <- app_assoc; reflexivity|]. split; [apply Forall2_app; [apply kept_refl|apply (kept_nums a n (h1 :: m1))]|].
    split; [unfold kept; cbn; tauto|]. split; [reflexivity|]. split; [reflexivity|]. split; [reflexivity|].
    apply Forall2_app; [apply kept_nums|]. cbn. constructor.
    + destruct (lower_fields (sn t2)) as (I1 & I2 & _ & _ & _ & _ & S2 & _). unfold kept. rewrite I1, I2, S2. cbn. rewrite ST2. tauto.
    + apply WF_st_ge in W3. clear - W3. induction W3 as [|c l H F IH]; constructor; [|exact IH]. destruct (lower_fields c) as (I1 & I2 & _ & _ & _ & _ & S2 & _).
      unfold kept. rewrite I1, I2, S2. split; [reflexivity|]. split; [reflexivity|]. lia.
Qed.

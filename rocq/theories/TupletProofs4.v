(** All of the merging; new groups and scaling. *)
From Coq Require Import ZArith QArith Lia.
From Verif Require Import PyStr RecipModel RecipProofs DurationModel Pow2Proofs DurationProofs TupletModel PropsTupletGroups TupletProofs TupletProofs2 TupletProofs3.
Local Close Scope Q_scope.

Lemma WF_nonord gr k k' p c r : WF gr k k' (p ++ c :: r) -> c_en c <> 0 -> ~ ordinary (c_item c).
Proof.
  intros W N. destruct (WF_split gr k k' _ W p c r eq_refl N) as (k1 & p' & b & E & _ & B & _).
  destruct B as (q & h & m & t & EB & _ & _ & _ & _ & _ & _ & G). subst b. rewrite app_comm_cons, app_assoc in E. apply app_inj_tail in E. destruct E as [_ ->].
  rewrite Forall_forall in G. apply (G t). right. apply in_elt.
Qed.
Lemma WF_en gr k k' l : WF gr k k' l -> 0 < k -> forall p c d f, l = p ++ c :: d :: f -> c_st d <> 0 -> ~ ordinary (c_item c) -> c_en c <> 0.
Proof.
  induction 1 as [k|k k' c0 l O B G W IH|k k' b l B W IH]; intros K p c d f E ST NO.
  - destruct p; discriminate.
  - destruct p as [|a p]; injection E as -> E; [contradiction|]. apply (IH K p c d f E ST NO).
  - apply app_eq_app in E. destruct E as (x & [[EB ER] | [EP EL]]).
    + destruct x as [|y [|z x]].
      * apply (IH ltac:(lia) [] c d f); [symmetry; exact ER|exact ST|exact NO].
      * injection ER as <- ER. destruct B as (q & h & m & t & E & _ & _ & _ & _ & _ & T & _). rewrite E in EB. rewrite app_comm_cons in EB. apply app_inj_tail in EB. destruct EB as [_ ->]. lia.
      * injection ER as <- <- _. exfalso. destruct B as (q & h & m & t & E & _ & _ & _ & M & T & _ & _). rewrite E in EB.
        assert (I : In d (m ++ [t])). { destruct p as [|a p]; injection EB as _ EB; rewrite EB; [left; reflexivity|]. apply in_app_iff. right. right. left. reflexivity. }
        apply in_app_iff in I. destruct I as [I | [<- | []]]; [|contradiction]. rewrite Forall_forall in M. destruct (M d I). contradiction.
    + apply (IH ltac:(lia) x c d f EL ST NO).
Qed.
Definition upto (ib : list bool) (l : list cell) (m : nat) : list cell := fold_left (mergeAt ib) (seq 0 m) l.
Lemma upto_S ib l m : upto ib l (S m) = mergeAt ib (upto ib l m) m.
Proof. unfold upto. rewrite seq_S, fold_left_app. reflexivity. Qed.
(** The item at [j] is taken into the tuplet before it. *)
Definition taken (ib : list bool) (l : list cell) (m j : nat) (c : cell) : Prop :=
  exists i p, j = S i /\ i < m /\ nth i ib false = true /\ nth_error l i = Some p /\ ~ ordinary (c_item p) /\ (c_mul p == c_mul c)%Q.
Lemma Forall2_nth {A B} (R : A -> B -> Prop) l l' : Forall2 R l l' -> forall i x, nth_error l i = Some x -> exists y, nth_error l' i = Some y /\ R x y.
Proof. induction 1; intros [|i] z E; try discriminate; cbn in *; [injection E as <-; eauto|apply IHForall2; exact E]. Qed.
Lemma F2_len {A B} {R : A -> B -> Prop} {l l'} : Forall2 R l l' -> length l = length l'.
Proof. induction 1; cbn; congruence. Qed.
Lemma merge_all ib l k' : WF false 1 k' l -> forall m, exists k2, WF false 1 k2 (upto ib l m) /\ length (upto ib l m) = length l /\
  forall j c0, nth_error l j = Some c0 -> exists c, nth_error (upto ib l m) j = Some c /\ c_item c = c_item c0 /\ c_mul c = c_mul c0 /\ (c_st c = 0 <-> c_st c0 = 0 \/ taken ib l m j c0).
Proof.
  intros W m. induction m as [|m (k2 & W2 & L & H)].
  - exists k'. split; [exact W|]. split; [reflexivity|]. intros j c0 E. exists c0. repeat (split; [assumption || reflexivity|]). split; [left; assumption|]. intros [X | (i & p & _ & X & _)]; [exact X|lia].
  - rewrite upto_S. set (F := upto ib l m) in *. clearbody F.
    assert (TS : forall j c0, taken ib l (S m) j c0 <-> taken ib l m j c0 \/ (j = S m /\ taken ib l (S m) j c0)).
    { intros j c0. split.
      - intros (i & p & E & I & R). destruct (Nat.eq_dec i m) as [-> | D]; [right; split; [exact E|]; exists m, p; split; [exact E|split; [exact I|exact R]]|left; exists i, p; split; [exact E|split; [lia|exact R]]].
      - intros [(i & p & E & I & R) | [_ X]]; [exists i, p; split; [exact E|split; [lia|exact R]]|exact X]. }
    destruct (le_lt_dec (length F) (S m)) as [LE | LT].
    { rewrite mergeAt_short by exact LE. exists k2. split; [exact W2|]. split; [exact L|]. intros j c0 E. destruct (H j c0 E) as (c & C1 & C2 & C3 & C4). exists c. repeat (split; [assumption|]).
      rewrite C4, (TS j c0). assert (j < length l) by (apply nth_error_Some; congruence). split; [tauto|]. intros [X | [X | [X _]]]; [tauto|tauto|lia]. }
    assert (SP : exists p c d f, F = p ++ c :: d :: f /\ length p = m).
    { destruct (nth_error_split F m) with (a := nth m F (mkC (mkI 0 0 0 None None false) 0 false 0 0 0 0 0 0)) as (p & r & E & LP); [apply nth_error_nth'; lia|].
      destruct r as [|d f]; [exfalso; rewrite E, app_length in LT; cbn in LT; lia|]. eexists p, _, d, f. split; [exact E|exact LP]. }
    destruct SP as (p & c & d & f & EF & LP).
    assert (NC : nth_error F m = Some c) by (rewrite EF, <- LP, nth_error_app2, Nat.sub_diag by lia; reflexivity).
    assert (ND : nth_error F (S m) = Some d) by (rewrite EF, nth_error_app2 by lia; replace (S m - length p) with 1 by lia; reflexivity).
    assert (NL : exists c0 d0, nth_error l m = Some c0 /\ nth_error l (S m) = Some d0).
    { destruct (nth_error l m) eqn:E1; [|apply nth_error_None in E1; lia]. destruct (nth_error l (S m)) eqn:E2; [|apply nth_error_None in E2; lia]. eauto. }
    destruct NL as (c0 & d0 & L1 & L2). destruct (H m c0 L1) as (c' & C1 & C2 & C3 & _). rewrite NC in C1. injection C1 as <-.
    destruct (H (S m) d0 L2) as (d' & D1 & D2 & D3 & D4). rewrite ND in D1. injection D1 as <-.
    assert (TM : taken ib l (S m) (S m) d0 <-> nth m ib false = true /\ ~ ordinary (c_item c) /\ (c_mul c == c_mul d)%Q).
    { rewrite C2, C3, D3. split.
      - intros (i & p0 & E & _ & X & Y & Z). injection E as <-. rewrite L1 in Y. injection Y as <-. split; assumption.
      - intros (X & Y & Z). exists m, c0. repeat (split; [assumption || reflexivity || lia|]). exact Z. }
    assert (NT : ~ taken ib l m (S m) d0) by (intros (i & p0 & E & I & _); lia).
    destruct (cond ib (length p) c d) eqn:CO.
    + rewrite EF in W2. destruct (merge_step ib k2 p c d f W2 CO) as (k3 & W3 & p' & c' & d' & f' & E & KP & KC & I1 & I2 & I3 & KF).
      rewrite <- EF, LP in W3, E. exists k3. split; [exact W3|]. rewrite E.
      assert (LL : length (p' ++ c' :: d' :: f') = length F). { rewrite EF, !app_length. cbn. rewrite <- (F2_len KP), <- (F2_len KF). reflexivity. }
      split; [congruence|]. intros j e0 EJ. destruct (H j e0 EJ) as (e & E1 & E2 & E3 & E4).
      assert (CT : nth m ib false = true /\ ~ ordinary (c_item c) /\ (c_mul c == c_mul d)%Q).
      { unfold cond in CO. rewrite LP, !andb_true_iff, !negb_true_iff, !Nat.eqb_neq in CO. destruct CO as [[[X Y] _] Z]. split; [exact X|]. split; [|apply Qeq_bool_eq; exact Z]. eapply WF_nonord; [exact W2|exact Y]. }
      destruct (Nat.eq_dec j (S m)) as [-> | DJ].
      * rewrite L2 in EJ. injection EJ as <-. exists d'. split; [rewrite nth_error_app2 by (rewrite <- (F2_len KP); lia); rewrite <- (F2_len KP), LP; replace (S m - m) with 1 by lia; reflexivity|].
        split; [congruence|]. split; [congruence|]. split; [intros _; right; apply TM; exact CT|intros _; exact I3].
      * assert (KE : exists e', nth_error (p' ++ c' :: d' :: f') j = Some e' /\ kept e e').
        { rewrite EF in E1. destruct (Nat.lt_ge_cases j (length p)) as [J | J].
          - rewrite nth_error_app1 in E1 by exact J. rewrite nth_error_app1 by (rewrite <- (F2_len KP); exact J). apply (Forall2_nth _ _ _ KP); exact E1.
          - rewrite nth_error_app2 in E1 by exact J. rewrite nth_error_app2 by (rewrite <- (F2_len KP); exact J). rewrite <- (F2_len KP). remember (j - length p) as u eqn:U. destruct u as [|[|u]]; [|lia|].
            + cbn in E1. injection E1 as <-. exists c'. split; [reflexivity|exact KC].
            + cbn in E1 |- *. apply (Forall2_nth _ _ _ KF); exact E1. }
        destruct KE as (e' & X & Y1 & Y2 & Y3). exists e'. split; [exact X|]. split; [congruence|]. split; [congruence|]. rewrite Y3, E4, (TS j e0). tauto.
    + exists k2. rewrite EF, <- LP, mergeAt_at, CO, <- EF. split; [exact W2|]. split; [exact L|]. intros j e0 EJ. destruct (H j e0 EJ) as (e & E1 & E2 & E3 & E4). exists e. repeat (split; [assumption|]). rewrite LP, E4, (TS j e0).
      split; [tauto|]. intros [X | [X | [-> X]]]; [tauto|tauto|]. rewrite L2 in EJ. injection EJ as <-. apply TM in X. destruct X as (X1 & X2 & X3). rewrite ND in E1. injection E1 as <-.
      apply E4. destruct (Nat.eq_dec (c_st d) 0) as [Z | Z]; [exact Z|]. exfalso. unfold cond in CO. rewrite LP, X1 in CO. apply Qeq_eq_bool in X3. rewrite X3, andb_true_r in CO. cbn in CO.
      rewrite EF in W2. pose proof (WF_en false 1 k2 _ W2 ltac:(lia) p c d f eq_refl Z X2) as EN. rewrite (proj2 (Nat.eqb_neq _ _) EN), (proj2 (Nat.eqb_neq _ _) Z) in CO. discriminate.
Qed.

(** * New groups. *)
Lemma regroup_bare k : forall a b, Forall bare a -> regroup k (a ++ b) = map (fun c => set_grp c k) a ++ regroup k b.
Proof. induction a as [|c a IH]; intros b F; [reflexivity|]. apply Forall_cons_iff in F. destruct F as [[S E] F]. cbn. rewrite S, E. cbn. f_equal. apply IH. exact F. Qed.
Lemma regroup_WF k k' l : 0 < k -> WF false k k' l -> WF true k k' (regroup 0 l).
Proof.
  intros K W. revert K. induction W as [k|k k' c l O B G W IH|k k' b l B W IH]; intros K; [apply W_nil| |].
  - change (c :: l) with ([c] ++ l). rewrite regroup_bare by (constructor; [exact B|constructor]). cbn. apply W_one; [exact O|exact B|reflexivity|apply IH; exact K].
  - destruct B as (q & h & m & t & E & Q & A & HB & C & D & F & G). subst b. cbn. rewrite A, HB. rewrite (proj2 (Nat.eqb_neq k 0)) by lia. cbn. rewrite <- app_assoc. rewrite regroup_bare by exact C. cbn. rewrite D, F. cbn.
    rewrite (proj2 (Nat.eqb_neq k 0)) by lia. set (sg := fun c => set_grp c k).
    change (WF true k k' ((sg h :: map sg m) ++ [sg t] ++ regroup 0 l)). rewrite app_assoc. apply W_blk; [|apply IH; lia].
    exists q, (sg h), (map sg m), (sg t). split; [reflexivity|]. split; [exact Q|]. split; [exact A|]. split; [exact HB|]. split; [apply Forall_forall; intros c I; apply in_map_iff in I; destruct I as (c0 & <- & I); rewrite Forall_forall in C; exact (C c0 I)|].
    split; [exact D|]. split; [exact F|]. replace ((sg h :: map sg m) ++ [sg t]) with (map sg (h :: m ++ [t])) by (cbn; rewrite map_app; reflexivity).
    apply Forall_forall. intros c I. apply in_map_iff in I. destruct I as (c0 & <- & I). rewrite Forall_forall in G. split; [apply (G c0 I)|reflexivity].
Qed.
Lemma regroup_fields : forall l cur, map c_item (regroup cur l) = map c_item l /\ map c_st (regroup cur l) = map c_st l.
Proof. induction l as [|c l IH]; intros cur; [split; reflexivity|]. cbn. destruct (IH (if c_en c =? 0 then if c_st c =? 0 then cur else c_st c else 0)) as [-> ->]. split; reflexivity. Qed.

(** * Scaling. *)
Lemma by_count_cases k a : exists s, by_count k a = Scale s /\ (1 <= s)%Z.
Proof. unfold by_count. destruct (_ && _) eqn:E; [|exists 1%Z; split; [reflexivity|lia]]. apply andb_true_iff in E. destruct E as [_ E]. apply Z.ltb_lt in E. eexists. split; [reflexivity|lia]. Qed.
Lemma scaling_cases f g : (exists s, scaling_of (f :: g) = Scale s /\ (1 <= s)%Z) \/ (exists a n, scaling_of (f :: g) = Nums a n /\ (0 < a)%Z /\ (inject_Z n == inject_Z a * c_mul f)%Q).
Proof.
  assert (LO : forall cs : list (Q * nat), let longest := (
              let total := sumDur (map c_item (f :: g)) in
              let a := (total / fold_left maxQ (map fst cs) 0)%Q in
              let n := (a * c_mul f)%Q in
              if (qden a =? 1)%positive && (1 <? qnum a)%Z && (qden n =? 1)%positive && (1 <? qnum n)%Z
              then Nums (qnum a) (qnum n) else Scale 1) : scaling in
     (exists s, longest = Scale s /\ (1 <= s)%Z) \/ (exists a n, longest = Nums a n /\ (0 < a)%Z /\ (inject_Z n == inject_Z a * c_mul f)%Q)).
  { intros cs. cbv zeta. set (a := (_ / _)%Q). destruct (_ && _) eqn:E; [|left; exists 1%Z; split; [reflexivity|lia]]. right. rewrite !andb_true_iff in E. destruct E as [[[E1 E2] E3] E4].
    apply Pos.eqb_eq in E1, E3. apply Z.ltb_lt in E2, E4. exists (qnum a), (qnum (a * c_mul f)). split; [reflexivity|]. split; [lia|].
    pose proof (qfrac_red a) as R1. pose proof (qfrac_red (a * c_mul f)) as R2. rewrite E1 in R1. rewrite E3 in R2. change (qnum a # 1)%Q with (inject_Z (qnum a)) in R1. change (qnum (a * c_mul f) # 1)%Q with (inject_Z (qnum (a * c_mul f))) in R2. rewrite R2, R1. reflexivity. }
  assert (BC : forall k x, (exists s, by_count k x = Scale s /\ (1 <= s)%Z) \/ (exists a n, by_count k x = Nums a n /\ (0 < a)%Z /\ (inject_Z n == inject_Z a * c_mul f)%Q)) by (intros; left; apply by_count_cases).
  unfold scaling_of.
  match goal with |- context [match i_num (c_item f) with Some v => _ | None => ?r end] => set (rest := r) end.
  assert (RE : (exists s, rest = Scale s /\ (1 <= s)%Z) \/ (exists a n, rest = Nums a n /\ (0 < a)%Z /\ (inject_Z n == inject_Z a * c_mul f)%Q)).
  { unfold rest. destruct (counts (f :: g)) as [|[q k] [|[q2 k2] [|z cs]]]; [apply LO|apply BC| |apply LO]. destruct (k =? k2); [apply BC|apply LO]. }
  clearbody rest. destruct (i_num (c_item f)) as [v|]; [|exact RE]. cbv zeta. destruct (_ && _) eqn:E; [|exact RE]. left. apply andb_true_iff in E. destruct E as [_ E]. apply Z.leb_le in E. eexists. split; [reflexivity|exact E].
Qed.
Lemma scaled_good q c f g : good q c -> (c_mul f == q)%Q -> good q (scaled (scaling_of (f :: g)) c).
Proof.
  intros (A & B & C & D & E & F) Q. destruct (scaling_cases f g) as [(s & -> & S) | (a & n & -> & P & N)]; cbn.
  - repeat (split; [assumption|]). exact S.
  - split; [exact A|]. split; [exact B|]. split; [exact P|]. split; [cbn; rewrite N, Q; ring|]. split; [exact E|cbn; lia].
Qed.
Lemma WF_mul k k' l : WF true k k' l -> 0 < k -> (forall c, In c l -> c_grp c = 0 \/ k <= c_grp c) /\
  (forall c d, In c l -> In d l -> c_grp c = c_grp d -> c_grp c <> 0 -> (c_mul c == c_mul d)%Q).
Proof.
  induction 1 as [k|k k' c l O B G W IH|k k' b l B W IH]; intros K.
  - split; [intros c []|intros c d []].
  - destruct (IH K) as [I1 I2]. specialize (G eq_refl). split.
    + intros d [<- | I]; [left; exact G|apply I1; exact I].
    + intros a d [<- | I] [<- | J] E N; try congruence. apply I2; assumption.
  - destruct (IH ltac:(lia)) as [I1 I2]. destruct B as (q & h & m & t & E & _ & _ & _ & _ & _ & _ & G). rewrite Forall_forall in G.
    assert (GB : forall c, In c b -> (c_mul c == q)%Q /\ c_grp c = k). { intros c I. destruct (G c I) as [(_ & X & _) Y]. split; [exact X|apply Y; reflexivity]. }
    split.
    + intros c I. apply in_app_iff in I. destruct I as [I | I]; [destruct (GB c I); lia|]. specialize (I1 c I). lia.
    + intros c d I J EQ N. apply in_app_iff in I. apply in_app_iff in J. destruct I as [I | I], J as [J | J].
      * destruct (GB c I) as [-> _]. destruct (GB d J) as [-> _]. reflexivity.
      * destruct (GB c I) as [_ X]. specialize (I1 d J). lia.
      * destruct (GB d J) as [_ X]. specialize (I1 c I). lia.
      * apply I2; assumption.
Qed.
Lemma scaled_fields s c : c_item (scaled s c) = c_item c /\ c_st (scaled s c) = c_st c /\ c_en (scaled s c) = c_en c /\ c_grp (scaled s c) = c_grp c.
Proof. destruct s; cbn; repeat split; reflexivity. Qed.
Lemma assign_WF k' L : WF true 1 k' L -> WF true 1 k' (assignScalings L).
Proof.
  intros W0. destruct (WF_mul 1 k' L W0 ltac:(lia)) as [_ HL]. unfold assignScalings.
  set (f := fun c => if c_grp c =? 0 then c else scaled (scaling_of (filter (fun d => c_grp d =? c_grp c) L)) c).
  assert (FG : forall c q, In c L -> good q c -> good q (f c)).
  { intros c q I G. unfold f. destruct (c_grp c =? 0) eqn:E; [exact G|]. apply Nat.eqb_neq in E. destruct (filter (fun d => c_grp d =? c_grp c) L) as [|x g] eqn:X.
    - exfalso. assert (Y : In c []) by (rewrite <- X; apply filter_In; split; [exact I|apply Nat.eqb_refl]). destruct Y.
    - apply scaled_good; [exact G|]. assert (Y : In x (x :: g)) by (left; reflexivity). rewrite <- X in Y. apply filter_In in Y. destruct Y as [Y Z]. apply Nat.eqb_eq in Z. destruct G as (_ & M & _). rewrite <- M. apply HL; [exact Y|exact I|exact Z|congruence]. }
  assert (FF : forall c, c_item (f c) = c_item c /\ c_st (f c) = c_st c /\ c_en (f c) = c_en c /\ c_grp (f c) = c_grp c).
  { intros c. unfold f. destruct (c_grp c =? 0); [repeat split; reflexivity|apply scaled_fields]. }
  assert (GEN : forall k k2 l, WF true k k2 l -> (forall c, In c l -> In c L) -> WF true k k2 (map f l)).
  { induction 1 as [k|k k2 c l O B G W IH|k k2 b l B W IH]; intros SUB; [apply W_nil| |].
    - cbn. destruct (FF c) as (F1 & F2 & F3 & F4). apply W_one; [rewrite F1; exact O|unfold bare; rewrite F2, F3; exact B|rewrite F4; exact G|]. apply IH. intros d I. apply SUB. right. exact I.
    - rewrite map_app. apply W_blk; [|apply IH; intros d I; apply SUB; apply in_or_app; right; exact I].
      destruct B as (q & h & m & t & E & Q & A & HB & C & D & F & G). exists q, (f h), (map f m), (f t). rewrite E. cbn. rewrite map_app. split; [reflexivity|]. split; [exact Q|].
      split; [rewrite (proj1 (proj2 (FF h))); exact A|]. split; [rewrite (proj1 (proj2 (proj2 (FF h)))); exact HB|].
      split; [apply Forall_forall; intros c I; apply in_map_iff in I; destruct I as (c0 & <- & I); rewrite Forall_forall in C; destruct (C c0 I); destruct (FF c0) as (_ & F2 & F3 & _); split; congruence|].
      split; [rewrite (proj1 (proj2 (FF t))); exact D|]. split; [rewrite (proj1 (proj2 (proj2 (FF t)))); exact F|].
      change (f h :: map f m ++ map f [t]) with (map f (h :: m) ++ map f [t]). rewrite <- map_app. cbn [app]. rewrite <- E.
      apply Forall_forall. intros c I. apply in_map_iff in I. destruct I as (c0 & <- & I). rewrite Forall_forall in G. destruct (G c0) as [G1 G2]; [exact I|]. split; [apply FG; [apply SUB; apply in_or_app; left; exact I|exact G1]|].
      intros _. rewrite (proj2 (proj2 (proj2 (FF c0)))). apply G2. reflexivity. }
  apply GEN; [exact W0|auto].
Qed.
Lemma assign_fields L : map c_item (assignScalings L) = map c_item L /\ map c_st (assignScalings L) = map c_st L.
Proof.
  unfold assignScalings. rewrite !map_map. split; apply map_ext; intros c; destruct (c_grp c =? 0); try reflexivity; apply scaled_fields.
Qed.

(** Lemmas on beams that are read as tremolos. *)
From Coq Require Import List Arith NArith ZArith QArith Qround Lia Lqa Bool.
From Verif Require Import BeamTremModel.
Import ListNotations.
Local Close Scope Q_scope.

Lemma pitches_eqb_eq : forall a b, pitches_eqb a b = true <-> a = b.
Proof.
  induction a as [|x a IH]; intros [|y b]; cbn; split; intro H; try discriminate; try reflexivity.
  - apply andb_true_iff in H as [H1 H2]. apply Z.eqb_eq in H1. apply IH in H2. congruence.
  - injection H as H1 H2. subst. rewrite Z.eqb_refl. apply IH. reflexivity.
Qed.

(** ** Logarithms *)
Lemma tlog2_inv : forall (m : Z) x, (0 < m)%Z -> (x == / inject_Z m)%Q -> tlog2 x = (- Z.log2 m)%Z.
Proof.
  intros m x Hm Hx. unfold tlog2.
  assert (Hm' : (0 < inject_Z m)%Q) by (change 0%Q with (inject_Z 0); rewrite <- Zlt_Qlt; lia).
  destruct (Qle_bool 1 x) eqn:E.
  - apply Qle_bool_iff in E. rewrite Hx in E.
    assert (H1 : (inject_Z m <= 1)%Q).
    { apply (Qmult_le_compat_r _ _ (inject_Z m)) in E; [|lra].
      rewrite (Qmult_comm (/ _)), Qmult_inv_r in E by lra. lra. }
    change 1%Q with (inject_Z 1) in H1. rewrite <- Zle_Qle in H1. assert (m = 1)%Z by lia. subst m.
    rewrite (Qfloor_comp x (inject_Z 1)) by (rewrite Hx; reflexivity). rewrite Qfloor_Z. reflexivity.
  - rewrite (Qfloor_comp (1 / x) (inject_Z m)), Qfloor_Z; [reflexivity|].
    rewrite Hx. unfold Qdiv. rewrite Qinv_involutive. ring.
Qed.
Lemma tlog2_ge : forall x, (1 <= x)%Q -> (0 <= tlog2 x)%Z.
Proof.
  intros x H. unfold tlog2. apply Qle_bool_iff in H. rewrite H. apply Z.log2_nonneg.
Qed.

(** ** Groups *)
Lemma group_from_concat : forall rest cur, concat (group_from cur rest) = cur ++ map snd rest.
Proof.
  induction rest as [|[s x] r IH]; intro cur; cbn.
  - rewrite app_nil_r. reflexivity.
  - destruct s; [rewrite IH, <- app_assoc; reflexivity|]. cbn. rewrite IH. reflexivity.
Qed.
Lemma next_same_length : forall l, List.length (next_same l) = List.length l.
Proof.
  induction l as [|a [|b l] IH]; [reflexivity..|].
  change (next_same (a :: b :: l)) with (pitches_eqb (b_pitches b) (b_pitches a) :: next_same (b :: l)).
  cbn [List.length]. cbn [List.length] in IH. rewrite IH. reflexivity.
Qed.
Lemma map_snd_combine : forall (A B : Type) (l : list A) (r : list B),
  List.length r <= List.length l -> map snd (combine l r) = r.
Proof.
  induction l as [|a l IH]; intros [|b r] H; cbn in *; try reflexivity; [lia|]. rewrite IH by lia. reflexivity.
Qed.
Lemma groups_concat : forall l, concat (groups l) = l.
Proof.
  intros [|a l]; [reflexivity|]. unfold groups. rewrite group_from_concat, map_snd_combine; [reflexivity|].
  rewrite next_same_length. cbn. lia.
Qed.
Lemma group_from_nonempty : forall rest cur, cur <> [] -> Forall (fun g => g <> []) (group_from cur rest).
Proof.
  induction rest as [|[s x] r IH]; intros cur H; cbn.
  - constructor; [exact H|constructor].
  - destruct s; [apply IH; destruct cur; discriminate|]. constructor; [exact H|apply IH; discriminate].
Qed.
Lemma groups_nonempty : forall l, Forall (fun g => g <> []) (groups l).
Proof. intros [|a l]; [constructor|]. apply group_from_nonempty. discriminate. Qed.

Definition same_pitches (g : list bnote) : Prop := exists p, Forall (fun n => b_pitches n = p) g.

Lemma group_from_same : forall l cur a p,
  Forall (fun n => b_pitches n = p) cur -> b_pitches a = p ->
  Forall same_pitches (group_from cur (combine (next_same (a :: l)) l)).
Proof.
  induction l as [|b l IH]; intros cur a p Hc Ha.
  - cbn. constructor; [exists p; exact Hc|constructor].
  - change (combine (next_same (a :: b :: l)) (b :: l))
      with ((pitches_eqb (b_pitches b) (b_pitches a), b) :: combine (next_same (b :: l)) l).
    cbn [group_from]. destruct (pitches_eqb (b_pitches b) (b_pitches a)) eqn:E.
    + apply pitches_eqb_eq in E. apply (IH (cur ++ [b]) b p); [|congruence].
      apply Forall_app. split; [exact Hc|]. constructor; [congruence|constructor].
    + constructor; [exists p; exact Hc|]. apply (IH [b] b (b_pitches b)); [|reflexivity].
      constructor; [reflexivity|constructor].
Qed.
Lemma groups_same : forall l, Forall same_pitches (groups l).
Proof.
  intros [|a l]; [constructor|]. unfold groups. apply (group_from_same l [a] a (b_pitches a)); [|reflexivity].
  constructor; [reflexivity|constructor].
Qed.
Lemma all_same : forall l, forallb (fun b => b) (next_same l) = true -> same_pitches l.
Proof.
  intros [|a l] H; [exists []; constructor|]. exists (b_pitches a). constructor; [reflexivity|].
  revert a H. induction l as [|b l IH]; intros a H; [constructor|].
  change (next_same (a :: b :: l)) with (pitches_eqb (b_pitches b) (b_pitches a) :: next_same (b :: l)) in H.
  cbn [forallb] in H. apply andb_true_iff in H as [H1 H2]. apply pitches_eqb_eq in H1.
  constructor; [exact H1|]. rewrite <- H1. apply IH. exact H2.
Qed.
Lemma all_same_conv : forall l, same_pitches l -> forallb (fun b => b) (next_same l) = true.
Proof.
  intros l [p H]. induction l as [|a [|b l] IH]; [reflexivity..|].
  change (next_same (a :: b :: l)) with (pitches_eqb (b_pitches b) (b_pitches a) :: next_same (b :: l)).
  inversion H as [|? ? Ha Hl]; subst. cbn [forallb]. rewrite IH by exact Hl.
  inversion Hl as [|? ? Hb Hl']; subst. rewrite (proj2 (pitches_eqb_eq _ _) Hb). reflexivity.
Qed.

(** ** Powers of two *)
Lemma pow2_spec : forall n, pow2 n = true -> exists i, n = 2 ^ i.
Proof.
  intros n H. unfold pow2 in H. apply andb_true_iff in H as [H0 H]. apply negb_true_iff, Nat.eqb_neq in H0.
  apply N.eqb_eq in H.
  set (m := N.of_nat n) in *. assert (Hm : (m <> 0)%N) by lia.
  exists (N.to_nat (N.log2 m)).
  assert (E : m = (2 ^ N.log2 m)%N).
  { apply N.bits_inj. intro k. rewrite N.pow2_bits_eqb.
    destruct (N.eqb_spec (N.log2 m) k) as [<-|Hk]; [apply N.bit_log2; exact Hm|].
    destruct (N.lt_trichotomy k (N.log2 m)) as [Lt|[E|Gt]]; [|congruence|apply N.bits_above_log2; exact Gt].
    destruct (N.eq_dec m (2 ^ N.log2 m)) as [E|NE].
    { rewrite E, N.pow2_bits_eqb. destruct (N.eqb_spec (N.log2 m) k); [congruence|reflexivity]. }
    exfalso. pose proof (N.log2_spec m ltac:(lia)) as [L1 L2].
    assert (E2 : N.log2 (m - 1) = N.log2 m).
    { apply N.log2_unique; [lia|]. lia. }
    assert (B1 : N.testbit m (N.log2 m) = true) by (apply N.bit_log2; exact Hm).
    assert (P : (2 ^ N.log2 m <> 0)%N) by (apply N.pow_nonzero; lia).
    assert (B2 : N.testbit (m - 1) (N.log2 m) = true) by (rewrite <- E2; apply N.bit_log2; lia).
    assert (B3 : N.testbit (N.land m (m - 1)) (N.log2 m) = true) by (rewrite N.land_spec, B1, B2; reflexivity).
    rewrite H in B3. rewrite N.bits_0 in B3. discriminate. }
  assert (E3 : N.of_nat (2 ^ N.to_nat (N.log2 m)) = m).
  { rewrite Nat2N.inj_pow, N2Nat.id. symmetry. exact E. }
  apply Nat2N.inj. rewrite E3. reflexivity.
Qed.

(** ** Time *)
Inductive chain : Q -> list (Q * Q) -> Q -> Prop :=
| chain_nil : forall a b, (a == b)%Q -> chain a [] b
| chain_cons : forall a s d l b, (a == s)%Q -> chain (s + d)%Q l b -> chain a ((s, d) :: l) b.
Lemma chain_eq : forall a l b a' b', chain a l b -> (a == a')%Q -> (b == b')%Q -> chain a' l b'.
Proof.
  intros a l b a' b' H. revert a' b'. induction H as [a b E|a s d l b E H IH]; intros a' b' Ha Hb.
  - constructor. rewrite <- Ha, <- Hb. exact E.
  - constructor; [rewrite <- Ha; exact E|]. apply IH; [reflexivity|exact Hb].
Qed.
Definition adv (now : Q) (l : list bnote) : Q := fold_left (fun q n => (q + b_dur n)%Q) l now.
Lemma adv_app : forall a b now, adv now (a ++ b) = adv (adv now a) b.
Proof. intros. unfold adv. apply fold_left_app. Qed.
Lemma adv_eq : forall l a b, (a == b)%Q -> (adv a l == adv b l)%Q.
Proof. induction l as [|n l IH]; intros a b H; cbn; [exact H|]. apply IH. rewrite H. reflexivity. Qed.
Lemma adv_same : forall l d now, Forall (fun n => (b_dur n == d)%Q) l -> (adv now l == now + d * q_of (List.length l))%Q.
Proof.
  induction l as [|n l IH]; intros d now H.
  - cbn. unfold q_of. cbn. ring.
  - inversion H as [|? ? Hn Hl]; subst. cbn [adv fold_left]. fold (adv (now + b_dur n)%Q l). rewrite (IH d) by exact Hl.
    rewrite Hn. unfold q_of. cbn [List.length]. rewrite Nat2Z.inj_succ. unfold Z.succ. rewrite inject_Z_plus. cbn. ring.
Qed.

Lemma events_hidden : forall g now two r ms,
  events now two (map BN g ++ r) (repeat Hidden (List.length g) ++ ms) = events (adv now g) two r ms.
Proof. induction g as [|n g IH]; intros; cbn; [reflexivity|]. apply IH. Qed.

Lemma chain_plain : forall l now two,
  chain now (events now two (map BN l) (repeat Plain (List.length l))) (adv now l).
Proof.
  induction l as [|n l IH]; intros now two; cbn.
  - constructor. reflexivity.
  - constructor; [reflexivity|]. apply IH.
Qed.
Lemma chain_group : forall g d v k now two r ms b, g <> [] -> Forall (fun n => (b_dur n == d)%Q) g ->
  (v == d * q_of (List.length g))%Q ->
  (forall now', (now' == adv now g)%Q -> now' = adv now g -> chain now' (events now' two (map BN r) ms) b) ->
  chain now (events now two (map BN (g ++ r)) ((Trem v k :: repeat Hidden (List.length g - 1)) ++ ms)) b.
Proof.
  intros g d v k now two r ms b Hg Hd Hv H. destruct g as [|n g]; [congruence|].
  cbn [List.length map app events Nat.sub]. rewrite Nat.sub_0_r. cbn [lasts].
  rewrite map_app, events_hidden.
  assert (E : (now + v == adv now (n :: g))%Q) by (rewrite Hv, (adv_same (n :: g) d now Hd); reflexivity).
  constructor; [reflexivity|].
  change (adv (now + b_dur n) g) with (adv now (n :: g)).
  eapply chain_eq; [apply (H (adv now (n :: g)) (Qeq_refl _) eq_refl)|rewrite E; reflexivity|reflexivity].
Qed.
Lemma chain_groups : forall gs d now two, Forall (fun g => g <> []) gs ->
  Forall (fun n => (b_dur n == d)%Q) (concat gs) ->
  chain now (events now two (map BN (concat gs)) (flat_map (group_marks d) gs)) (adv now (concat gs)).
Proof.
  induction gs as [|g gs IH]; intros d now two H0 Hd.
  - cbn. constructor. reflexivity.
  - inversion H0 as [|? ? Hg Hgs]; subst. cbn [concat] in Hd. apply Forall_app in Hd as [Hd1 Hd2].
    cbn [concat flat_map]. unfold group_marks at 1.
    apply (chain_group g d); [exact Hg|exact Hd1|reflexivity|].
    intros now' _ ->. rewrite adv_app. apply IH; assumption.
Qed.

Lemma existsb_false : forall (A : Type) (f : A -> bool) l, existsb f l = false -> Forall (fun x => f x = false) l.
Proof.
  induction l as [|x l IH]; cbn; intro H; constructor; apply orb_false_iff in H as [H1 H2]; auto.
Qed.

(** C107: beams inside an MEI <beam>. *)
From Coq Require Import ZArith Lia.
From Verif Require Import PyStr PyStrProofs BeamModel BeamProofs BeamLevelModel PropsBeamLevels MeiBeamModel.

(** * Closed form for a group of notes that all take part. *)
Definition flat (g : bool) (xs : list (nat * option nat)) : list thing := map (fun x => TNote g (fst x) [] (snd x)) xs.
Definition val (prev : option (nat * option nat)) (c : nat) (k : option nat) (next : option nat) (b : nat) : beam :=
  let v1 := match next with
            | None => BStop
            | Some c2 => let v := match prev with Some _ => BContinue | None => BStart end in if b <? c2 then v else endHere v
            end in
  let v2 := match prev with Some (cp, _) => if b <? cp then v1 else hookHere v1 | None => v1 end in
  let v3 := match prev with Some (_, Some n) => if b <? n then v2 else breakStart v2 | _ => v2 end in
  match k with Some n => if b <? n then v3 else breakEnd v3 | None => v3 end.
Fixpoint out (g : bool) (prev : option (nat * option nat)) (xs : list (nat * option nat)) : list thing :=
  match xs with
  | [] => []
  | (c, k) :: xs' =>
      TNote g c (map (val prev c k (option_map fst (hd_error xs'))) (seq 0 c)) None :: out g (Some (c, k)) xs'
  end.

Lemma above_map n f h c : forall s, above n f (map h (seq s c)) = map (fun b => if b <? s + n then h b else f (h b)) (seq s c).
Proof.
  revert n. induction c as [|c IH]; intros n s; [destruct n; reflexivity|]. cbn [seq map]. destruct n as [|n]; cbn [above].
  - rewrite IH. rewrite !Nat.add_0_r, Nat.ltb_irrefl. f_equal. apply map_ext_in. intros b B. apply in_seq in B.
    replace (b <? S s) with false by (symmetry; apply Nat.ltb_ge; lia). replace (b <? s) with false by (symmetry; apply Nat.ltb_ge; lia). reflexivity.
  - rewrite IH. replace (s <? s + S n) with true by (symmetry; apply Nat.ltb_lt; lia). f_equal. apply map_ext. intros b. rewrite Nat.add_succ_r. reflexivity.
Qed.
Lemma repeat_map (v : beam) c : forall s, repeat v c = map (fun _ => v) (seq s c).
Proof. induction c as [|c IH]; intros s; [reflexivity|]. cbn. f_equal. apply IH. Qed.

Fixpoint filled (g st : bool) (xs : list (nat * option nat)) : list thing :=
  match xs with
  | [] => []
  | (c, k) :: xs' =>
      TNote g c (repeat (match xs' with [] => BStop | _ => if st then BContinue else BStart end) c) k :: filled g true xs'
  end.
Lemma cand_flat g c bs k : 1 <= c -> cand g (TNote g c bs k) = true.
Proof. intros H. unfold cand. rewrite eqb_reflx. destruct c; [lia|reflexivity]. Qed.
Lemma fill_flat g : forall xs st, Forall (fun x => 1 <= fst x) xs ->
  fill g st (flat g xs) = (filled g st xs, match xs with [] => false | _ => true end).
Proof.
  induction xs as [|[c k] xs IH]; intros st F; [reflexivity|]. inversion F as [|? ? C F']; subst. cbn [fst] in C.
  change (flat g ((c, k) :: xs)) with (TNote g c [] k :: flat g xs). cbn [fill]. rewrite cand_flat by exact C.
  rewrite (IH true F'). cbn [filled]. destruct xs; reflexivity.
Qed.
Lemma out_flat g : forall xs prev, Forall (fun x => 1 <= fst x) xs ->
  breakLoop g (match prev with Some (_, pk) => pk | None => None end)
    (loop3 g (option_map fst prev) (loop2 g (filled g (match prev with Some _ => true | None => false end) xs))) = out g prev xs.
Proof.
  induction xs as [|[c k] xs IH]; intros prev F; [reflexivity|]. inversion F as [|? ? C F']; subst. cbn [fst] in C.
  cbn [filled loop2]. rewrite cand_flat by exact C. cbn [setBeams beamsOf].
  assert (H2 : exists h, loop2 g (filled g (match prev with Some _ => true | None => false end) ((c, k) :: xs)) =
      TNote g c (map h (seq 0 c)) k :: loop2 g (filled g true xs) /\
      forall b, h b = match option_map fst (hd_error xs) with
            | None => BStop
            | Some c2 => let v := match prev with Some _ => BContinue | None => BStart end in if b <? c2 then v else endHere v
            end).
  { cbn [filled loop2]. rewrite cand_flat by exact C. cbn [setBeams beamsOf]. destruct xs as [|[c2 k2] xs].
    - cbn [filled find]. exists (fun _ => BStop). split; [rewrite <- repeat_map; reflexivity|]. reflexivity.
    - inversion F' as [|? ? C2 F2]; subst. cbn [fst] in C2. cbn [filled find]. rewrite cand_flat by exact C2. cbn [beamsOf]. rewrite repeat_length.
      rewrite (repeat_map _ c 0), above_map. eexists. split; [reflexivity|]. intros b. cbn. destruct prev as [[? ?]|]; reflexivity. }
  destruct H2 as (h & E & H). cbn [filled loop2] in E. rewrite cand_flat in E by exact C. cbn [setBeams beamsOf] in E. rewrite E. clear E.
  cbn [loop3]. rewrite cand_flat by exact C. cbn [beamsOf setBeams]. rewrite map_length, seq_length.
  assert (H3 : exists h', match option_map fst prev with
          | Some n => TNote g c (above n hookHere (map h (seq 0 c))) k
          | None => TNote g c (map h (seq 0 c)) k end = TNote g c (map h' (seq 0 c)) k /\
      forall b, h' b = match prev with Some (cp, _) => if b <? cp then h b else hookHere (h b) | None => h b end).
  { destruct prev as [[cp pk]|]; cbn [option_map fst]; [rewrite above_map|]; (eexists; split; [reflexivity|]; intros b; reflexivity). }
  destruct H3 as (h' & E & H'). rewrite E. clear E.
  cbn [breakLoop]. rewrite cand_flat by exact C. cbn [out].
  change (Some c) with (option_map fst (Some (c, k))). specialize (IH (Some (c, k)) F'). cbn [option_map fst] in IH. cbn [option_map fst]. rewrite IH.
  f_equal. f_equal. destruct prev as [[cp [pk|]]|]; destruct k as [k|]; rewrite ?above_map; apply map_ext; intros b; unfold val; rewrite ?H', ?H; cbn; reflexivity.
Qed.
Lemma allGrace_out g xs : forall prev, allGrace (out g prev xs) = allGrace (flat g xs).
Proof. induction xs as [|[c k] xs IH]; intros prev; [reflexivity|]. cbn. f_equal. apply IH. Qed.

(** * Things that take no part. *)
Definition kin (t t' : thing) : Prop :=
  match t, t' with
  | TOther, TOther => True
  | TNote g f _ _, TNote g' f' _ _ => g = g' /\ f = f'
  | _, _ => False
  end.
Definition keeps (g : bool) (t t' : thing) : Prop := kin t t' /\ (cand g t = false -> t' = t).
Lemma kin_cand g t t' : kin t t' -> cand g t' = cand g t.
Proof. destruct t, t'; cbn; intros K; try contradiction; [reflexivity|]. destruct K as [-> ->]. reflexivity. Qed.
Lemma keeps_refl g t : keeps g t t.
Proof. split; [destruct t; cbn; auto|reflexivity]. Qed.
Lemma keeps_trans g a b c : keeps g a b -> keeps g b c -> keeps g a c.
Proof.
  intros [K1 H1] [K2 H2]. split.
  - destruct a, b, c; cbn in *; try contradiction; [exact I|]. destruct K1 as [-> ->]. exact K2.
  - intros C. rewrite H2; [apply H1; exact C|]. rewrite (kin_cand g _ _ K1). exact C.
Qed.
Lemma keeps_all_trans g a : forall b c, Forall2 (keeps g) a b -> Forall2 (keeps g) b c -> Forall2 (keeps g) a c.
Proof.
  induction a as [|x a IH]; intros b c A B; inversion A; subst; inversion B; subst; constructor; [eapply keeps_trans; eassumption|eapply IH; eassumption].
Qed.
Lemma keeps_grace g a : forall b, Forall2 (keeps g) a b -> allGrace b = allGrace a.
Proof.
  induction a as [|x a IH]; intros b F; inversion F as [|? y ? b' [K _] F']; subst; [reflexivity|]. unfold allGrace in *. cbn [forallb]. rewrite (IH _ F'). f_equal.
  destruct x, y; cbn in K; try contradiction; [reflexivity|]. symmetry. apply K.
Qed.
Lemma keeps_weak g a b : Forall2 (keeps g) a b -> Forall2 (fun t t' => cand g t = false -> t' = t) a b.
Proof. intros F. induction F as [|t t' a b [_ K] F IH]; constructor; assumption. Qed.
Lemma fill_keeps g : forall ts st, Forall2 (keeps g) ts (fst (fill g st ts)) /\
  fill g st (filter (cand g) ts) = (filter (cand g) (fst (fill g st ts)), snd (fill g st ts)).
Proof.
  induction ts as [|t ts IH]; intros st; [split; [constructor|reflexivity]|].
  destruct t as [|gr f bs k].
  - cbn [fill filter cand]. destruct (IH st) as [A B]. destruct (fill g st ts) as [r l]. cbn [fst snd] in *. split; [constructor; [apply keeps_refl|exact A]|]. exact B.
  - cbn [filter]. destruct (cand g (TNote gr f bs k)) eqn:C.
    + destruct bs as [|b bs].
      * cbn [fill]. rewrite C. destruct (IH true) as [A B]. rewrite B. destruct (fill g true ts) as [r l]. cbn [fst snd] in *.
        split; [constructor; [split; [cbn; auto|intros D; congruence]|exact A]|].
        cbn [filter]. replace (cand g (TNote gr f _ k)) with true by (symmetry; exact C). reflexivity.
      * cbn [fill]. destruct (IH st) as [A B]. rewrite B. destruct (fill g st ts) as [r l]. cbn [fst snd] in *.
        split; [constructor; [apply keeps_refl|exact A]|]. cbn [filter]. rewrite C. reflexivity.
    + assert (E : fill g st (TNote gr f bs k :: ts) = (TNote gr f bs k :: fst (fill g st ts), snd (fill g st ts))).
      { cbn [fill]. destruct bs; [rewrite C|]; destruct (fill g st ts); reflexivity. }
      rewrite E. cbn [fst snd filter]. rewrite C. destruct (IH st) as [A B]. split; [constructor; [apply keeps_refl|exact A]|exact B].
Qed.
Lemma setBeams_keeps g t bs : cand g t = true -> keeps g t (setBeams t bs).
Proof. intros C. destruct t; [discriminate|]. split; [cbn; auto|congruence]. Qed.
Lemma find_filter g ts : find (cand g) (filter (cand g) ts) = find (cand g) ts.
Proof. induction ts as [|t ts IH]; [reflexivity|]. cbn [filter find]. destruct (cand g t) eqn:C; [|exact IH]. cbn [find]. rewrite C. reflexivity. Qed.
Lemma loop2_keeps g : forall ts, Forall2 (keeps g) ts (loop2 g ts) /\ loop2 g (filter (cand g) ts) = filter (cand g) (loop2 g ts).
Proof.
  induction ts as [|t ts [A B]]; [split; [constructor|reflexivity]|]. cbn [loop2 filter]. destruct (cand g t) eqn:C.
  - assert (K : keeps g t (match find (cand g) ts with Some nx => setBeams t (above (length (beamsOf nx)) endHere (beamsOf t)) | None => t end))
      by (destruct (find (cand g) ts); [apply setBeams_keeps; exact C|apply keeps_refl]).
    split; [constructor; assumption|]. cbn [loop2]. rewrite C, find_filter, B. rewrite (kin_cand g _ _ (proj1 K)), C. reflexivity.
  - split; [constructor; [apply keeps_refl|exact A]|]. rewrite C. exact B.
Qed.
Lemma loop3_keeps g : forall ts prev, Forall2 (keeps g) ts (loop3 g prev ts) /\ loop3 g prev (filter (cand g) ts) = filter (cand g) (loop3 g prev ts).
Proof.
  induction ts as [|t ts IH]; intros prev; [split; [constructor|reflexivity]|]. cbn [loop3 filter]. destruct (cand g t) eqn:C.
  - destruct (IH (Some (length (beamsOf t)))) as [A B].
    assert (K : keeps g t (match prev with Some n => setBeams t (above n hookHere (beamsOf t)) | None => t end))
      by (destruct prev; [apply setBeams_keeps; exact C|apply keeps_refl]).
    split; [constructor; assumption|]. cbn [loop3 filter]. rewrite C, B. rewrite (kin_cand g _ _ (proj1 K)), C. reflexivity.
  - destruct (IH prev) as [A B]. split; [constructor; [apply keeps_refl|exact A]|]. cbn [filter]. rewrite C. exact B.
Qed.
Lemma breakLoop_keeps g : forall ts pend, Forall2 (keeps g) ts (breakLoop g pend ts) /\ breakLoop g pend (filter (cand g) ts) = filter (cand g) (breakLoop g pend ts).
Proof.
  induction ts as [|t ts IH]; intros pend; [split; [constructor|reflexivity]|]. destruct t as [|gr f bs k].
  - cbn [breakLoop filter cand]. destruct (IH pend) as [A B]. split; [constructor; [apply keeps_refl|exact A]|exact B].
  - cbn [breakLoop filter]. destruct (cand g (TNote gr f bs k)) eqn:C.
    + destruct (IH k) as [A B]. split; [constructor; [split; [cbn; auto|congruence]|exact A]|]. cbn [breakLoop filter]. rewrite C.
      replace (cand g (TNote gr f _ None)) with true by (symmetry; exact C). rewrite B. reflexivity.
    + destruct (IH pend) as [A B]. split; [constructor; [apply keeps_refl|exact A]|]. cbn [filter]. rewrite C. exact B.
Qed.
Definition read_with (g : bool) (ts : list thing) : list thing := breakLoop g None (loop3 g None (loop2 g (fst (fill g false ts)))).
Lemma readBeam_with ts : readBeam ts = read_with (allGrace ts) ts.
Proof.
  unfold readBeam, read_with, beamTogether. f_equal. set (g := allGrace ts).
  rewrite (keeps_grace g _ _ (proj1 (loop3_keeps g _ None))), (keeps_grace g _ _ (proj1 (loop2_keeps g _))), (keeps_grace g _ _ (proj1 (fill_keeps g ts false))). reflexivity.
Qed.
Lemma allGrace_filter ts : filter (cand (allGrace ts)) ts <> [] -> allGrace (filter (cand (allGrace ts)) ts) = allGrace ts.
Proof.
  intros NE. set (g := allGrace ts) in *.
  assert (A : forall l, (forall t, In t l -> cand g t = true) -> l <> [] -> allGrace l = g).
  { induction l as [|t l IH]; intros H N; [congruence|]. cbn. pose proof (H t (or_introl eq_refl)) as C. destruct t as [|gr f bs k]; [discriminate|].
    apply andb_prop in C as [C _]. apply eqb_prop in C. subst gr. destruct l as [|u l]; [cbn; apply andb_true_r|].
    fold (allGrace (u :: l)). rewrite IH; [apply andb_diag|intros v V; apply H; right; exact V|discriminate]. }
  apply A; [|exact NE]. intros t T. apply filter_In in T. apply T.
Qed.

Lemma others_cand : forall ts, let g := allGrace ts in
  Forall2 (fun t t' => cand g t = false -> t' = t) ts (readBeam ts) /\
  filter (cand g) (readBeam ts) = readBeam (filter (cand g) ts).
Proof.
  intros ts g. rewrite readBeam_with. fold g. unfold read_with.
  destruct (fill_keeps g ts false) as [A1 B1]. set (r1 := fst (fill g false ts)) in *.
  destruct (loop2_keeps g r1) as [A2 B2]. set (r2 := loop2 g r1) in *.
  destruct (loop3_keeps g r2 None) as [A3 B3]. set (r3 := loop3 g None r2) in *.
  destruct (breakLoop_keeps g r3 None) as [A4 B4]. split.
  - assert (F : Forall2 (keeps g) ts (breakLoop g None r3)) by (eapply keeps_all_trans; [|exact A4]; eapply keeps_all_trans; [|exact A3]; eapply keeps_all_trans; eassumption).
    apply keeps_weak. exact F.
  - destruct (filter (cand g) ts) eqn:E.
    + rewrite <- B4, <- B3, <- B2. change (filter (cand g) r1) with (fst (filter (cand g) r1, snd (fill g false ts))). rewrite <- B1. reflexivity.
    + rewrite <- E. pose proof (allGrace_filter ts) as AG. fold g in AG. rewrite readBeam_with, AG by (rewrite E; discriminate).
      unfold read_with. rewrite E, B1. cbn [fst]. rewrite B2, B3, B4. reflexivity.
Qed.
(** The notes that take part in a beam: those with flags that are grace notes or not
    as the group is.  A group is one of grace notes if all its notes are. *)
Definition grace_group (ts : list thing) : Prop := forall gr f bs k, In (TNote gr f bs k) ts -> gr = true.
Definition takes_part (ts : list thing) (t : thing) : Prop :=
  match t with TOther => False | TNote gr f _ _ => 1 <= f /\ (gr = true <-> grace_group ts) end.
Lemma allGrace_group ts : allGrace ts = true <-> grace_group ts.
Proof.
  unfold allGrace, grace_group. rewrite forallb_forall. split; intros H; [intros gr f bs k I; apply (H _ I)|].
  intros [|gr f bs k] I; [reflexivity|]. eapply H. exact I.
Qed.
Lemma cand_takes ts t : cand (allGrace ts) t = true <-> takes_part ts t.
Proof.
  destruct t as [|gr f bs k]; cbn [cand takes_part]; [split; [discriminate|contradiction]|].
  rewrite andb_true_iff, eqb_true_iff, Nat.ltb_lt, <- allGrace_group. destruct gr, (allGrace ts); intuition (try lia; congruence).
Qed.
(** Everything else is left as it is, and the notes that take part are beamed as if
    nothing else was there. *)
Theorem C107_others : forall ts,
  length (readBeam ts) = length ts /\
  (forall i t, nth_error ts i = Some t -> ~ takes_part ts t -> nth_error (readBeam ts) i = Some t) /\
  (forall p, (forall t, p t = true <-> takes_part ts t) -> filter p (readBeam ts) = readBeam (filter p ts)).
Proof.
  intros ts. destruct (others_cand ts) as [A B]. cbn zeta in A, B. split; [|split].
  - clear B. induction A; cbn; congruence.
  - intros i t I N. assert (C : cand (allGrace ts) t = false) by (destruct (cand (allGrace ts) t) eqn:E; [apply cand_takes in E; contradiction|reflexivity]).
    revert A I C. generalize (allGrace ts), (readBeam ts). clear. intros g r A. revert i. induction A as [|x y a b K A IH]; intros [|i] I C; try discriminate.
    + injection I as ->. cbn. rewrite K by exact C. reflexivity.
    + cbn in *. apply IH; assumption.
  - intros p P. assert (E : forall l, filter p l = filter (cand (allGrace ts)) l).
    { intros l. apply filter_ext. intros t. pose proof (P t) as P1. pose proof (cand_takes ts t) as P2. destruct (p t), (cand (allGrace ts) t); intuition congruence. }
    rewrite !E. exact B.
Qed.
Print Assumptions C107_others.
Example C107_others_nonvacuous : readBeam [TNote false 1 [] None; TOther; TNote true 2 [] None; TNote false 1 [] None; TNote false 0 [] None]
  = [TNote false 1 [BStart] None; TOther; TNote true 2 [] None; TNote false 1 [BStop] None; TNote false 0 [] None].
Proof. reflexivity. Qed.

(** * Marks. *)
Lemma readBeam_flat g xs : xs <> [] -> Forall (fun x => 1 <= fst x) xs -> readBeam (flat g xs) = out g None xs.
Proof.
  intros NE F. rewrite readBeam_with. replace (allGrace (flat g xs)) with g.
  - unfold read_with. rewrite fill_flat by exact F. cbn [fst]. apply (out_flat g xs None F).
  - symmetry. clear F. destruct xs as [|x xs]; [congruence|]. clear NE. revert x. induction xs as [|y xs IH]; intros x; [apply andb_true_r|].
    change (allGrace (flat g (x :: y :: xs))) with (g && allGrace (flat g (y :: xs))). rewrite IH. apply andb_diag.
Qed.
Definition left_fine (prev : option (nat * option nat)) (jl c jr : nat) : Prop :=
  match prev with
  | None => jl = 0
  | Some (cp, None) => jl = Nat.min cp c
  | Some (cp, Some n) => n = jl /\ cp = c /\ jl < c /\ c <= jr
  end.
Definition right_fine (next k : option nat) (jl c jr : nat) : Prop :=
  match next, k with
  | None, None => jr = 0
  | Some c2, None => jr = Nat.min c c2
  | Some c2, Some n => n = jr /\ c = c2 /\ jr < c /\ c <= jl
  | None, Some _ => False
  end.
Definition no_late (prev : option (nat * option nat)) (c : nat) (next : option nat) : Prop :=
  match prev, next with
  | Some (cp, _), Some c2 => Nat.min c c2 <= cp
  | None, None => False
  | _, _ => True
  end.
Lemma val_marks prev c k next jl jr : left_fine prev jl c jr -> right_fine next k jl c jr -> no_late prev c next ->
  marks jl jr (map (val prev c k next) (seq 0 c)).
Proof.
  intros L R N b x H. assert (B : b < c) by (rewrite <- (seq_length c 0), <- (map_length (val prev c k next)); apply nth_error_Some; congruence).
  rewrite nth_error_map in H. replace (nth_error (seq 0 c) b) with (Some b) in H.
  2:{ symmetry. rewrite (nth_error_nth' _ 0) by (rewrite seq_length; exact B). rewrite seq_nth by exact B. reflexivity. }
  cbn in H. injection H as <-. unfold val.
  destruct prev as [[cp [n|]]|], next as [c2|], k as [m|]; cbn [left_fine right_fine no_late] in *; try contradiction;
    repeat match goal with |- context [?a <? ?b] => destruct (Nat.ltb_spec a b) end; cbn; try lia; constructor.
Qed.
Fixpoint fine (jl : nat) (prev : option (nat * option nat)) (xs : list (nat * option nat)) (js : list nat) : Prop :=
  match xs, js with
  | [], [] => True
  | (c, k) :: xs', j :: js' =>
      let next := option_map fst (hd_error xs') in
      left_fine prev jl c j /\ right_fine next k jl c j /\ no_late prev c next /\
      match next with Some c2 => 1 <= j /\ j <= c /\ j <= c2 | None => True end /\ fine j (Some (c, k)) xs' js'
  | _, _ => False
  end.
Lemma out_lengths g : forall xs prev, map (fun t => length (beamsOf t)) (out g prev xs) = map fst xs.
Proof. induction xs as [|[c k] xs IH]; intros prev; [reflexivity|]. cbn [out map beamsOf fst]. rewrite map_length, seq_length, IH. reflexivity. Qed.
Lemma out_marked g : forall xs js jl prev, xs <> [] -> fine jl prev xs js -> marked jl js (map beamsOf (out g prev xs)).
Proof.
  induction xs as [|[c k] xs IH]; intros js jl prev NE F; [congruence|]. destruct js as [|j js]; [destruct F|].
  destruct F as (F1 & F2 & F3 & F4 & F5). pose proof (val_marks _ _ _ _ _ _ F1 F2 F3) as M.
  destruct xs as [|[c2 k2] xs].
  - destruct js; [|destruct F5]. cbn [hd_error option_map] in *. cbn [out map beamsOf hd_error option_map]. cbn [right_fine] in F2. destruct k; [contradiction|].
    subst j. split; [reflexivity|exact M].
  - specialize (IH js j (Some (c, k)) ltac:(discriminate) F5). cbn [out map beamsOf] in IH |- *. rewrite marked_cons. rewrite !map_length, !seq_length.
    cbn [hd_error option_map fst] in F4, M |- *. repeat split; try apply F4; [exact M|exact IH].
Qed.
Lemma fine_length : forall xs js jl prev, fine jl prev xs js -> length js = length xs.
Proof. induction xs as [|[c k] xs IH]; intros [|j js] jl prev F; try (destruct F; fail); [reflexivity|]. cbn [length]. f_equal. eapply IH. apply F. Qed.

(** No beam begins on a note in the middle of the group: of the beams that such a
    note shares with the next, the note before has them all. *)
Fixpoint no_late_start (prev : option nat) (cs : list nat) : Prop :=
  match cs with
  | c :: ((c2 :: _) as cs') =>
      match prev with Some p => Nat.min c c2 <= p | None => True end /\ no_late_start (Some c) cs'
  | _ => True
  end.
Definition notes_of (g : bool) (cs : list nat) : list thing := map (fun c => TNote g c [] None) cs.

Lemma plain_fine : forall cs p, cs <> [] -> Forall (fun c => 1 <= c) cs -> (p = None -> 2 <= length cs) ->
  (forall q, p = Some q -> 1 <= q) -> no_late_start p cs ->
  fine (match p with Some q => Nat.min q (hd 0 cs) | None => 0 end) (option_map (fun q => (q, None)) p) (map (fun c => (c, None)) cs) (shared cs).
Proof.
  induction cs as [|c cs IH]; intros p NE F L P N; [congruence|]. inversion F as [|? ? C F']; subst.
  destruct cs as [|c2 cs].
  - destruct p as [q|]; [|specialize (L eq_refl); cbn in L; lia]. cbn. repeat split; auto.
  - inversion F' as [|? ? C2 F2]; subst. destruct N as [N1 N2].
    specialize (IH (Some c) ltac:(discriminate) F' ltac:(discriminate) ltac:(intros q E; injection E as <-; exact C) N2). cbn [option_map hd] in IH.
    change (shared (c :: c2 :: cs)) with (Nat.min c c2 :: shared (c2 :: cs)). cbn [map]. cbn [map] in IH. cbn [fine hd_error option_map fst].
    split; [destruct p; cbn; lia|]. split; [cbn; reflexivity|]. split; [destruct p; cbn; auto|]. split; [lia|]. exact IH.
Qed.
(** In a group without breaks in which no beam begins on a note in the middle, each
    beam is begun, kept on, ended or a hook according to whether the notes on its two
    sides have it. *)
Theorem C107_levels_partial : forall g cs, 2 <= length cs -> Forall (fun c => 1 <= c) cs -> no_late_start None cs ->
  let bss := map beamsOf (readBeam (notes_of g cs)) in
  map (@length beam) bss = cs /\ marked 0 (shared cs) bss.
Proof.
  intros g cs L F N bss. assert (E : readBeam (notes_of g cs) = out g None (map (fun c => (c, None)) cs)).
  { rewrite <- readBeam_flat; [|destruct cs; [cbn in L; lia|discriminate]|rewrite Forall_map; exact F]. f_equal. unfold flat, notes_of. rewrite map_map. reflexivity. }
  unfold bss. rewrite E. split.
  - rewrite map_map. rewrite out_lengths, map_map. apply map_id.
  - apply out_marked; [destruct cs; [cbn in L; lia|discriminate]|]. apply (plain_fine cs None); [destruct cs; [cbn in L; lia|discriminate]|exact F|auto|discriminate|exact N].
Qed.
Print Assumptions C107_levels_partial.
Example C107_levels_nonvacuous : map beamsOf (readBeam (notes_of false [2; 2; 1; 2; 1; 3])) =
  [[BStart; BStart]; [BContinue; BStop]; [BContinue]; [BContinue; BPartialLeft]; [BContinue]; [BStop; BPartialLeft; BPartialLeft]].
Proof. reflexivity. Qed.

(** An eighth and two sixteenths: the second beam is kept on and ended without having
    begun. *)
Theorem C107_late_refuted : exists cs, 2 <= length cs /\ Forall (fun c => 1 <= c) cs /\
  map (fun bs => nth_error bs 1) (map beamsOf (readBeam (notes_of false cs))) = [None; Some BContinue; Some BStop].
Proof. exists [1; 2; 2]. repeat split; [cbn; lia|repeat constructor]. Qed.
Print Assumptions C107_late_refuted.

(** * Export and re-import. *)
(** The groups that come back: no beam begins in the middle except at a break; at a
    secondary break both notes have as many beams, all of which join the first to
    the note before and the second to the note after. *)
Fixpoint tame_mei (jl : nat) (prev : option nat) (cs js : list nat) : Prop :=
  match cs, js with
  | c :: ((c2 :: _) as cs'), j :: js' =>
      (j = Nat.min c c2 \/ (c = c2 /\ j < c /\ c <= jl /\ c <= hd 0 js')) /\
      match prev with Some p => Nat.min c c2 <= p | None => True end /\ tame_mei j (Some c) cs' js'
  | _, _ => True
  end.
Definition readBack (g : bool) (bss : list (list beam)) : list (list beam) :=
  map beamsOf (readBeam (flat g (combine (map (@length beam) bss) (writeBreaks bss)))).

Lemma stop_starts_none : forall bs b2 j jl jr, marks jl j bs -> marks j jr b2 -> length bs <= j -> numStartStops bs b2 = 0.
Proof.
  induction bs as [|x bs IH]; intros [|y b2] j jl jr M M2 L; try reflexivity. cbn [length] in L. destruct j as [|j]; [lia|].
  cbn [numStartStops]. rewrite (IH b2 j (Nat.pred jl) (Nat.pred jr)); [|apply (marks_tl _ _ _ _ M)|apply (marks_tl _ _ _ _ M2)|lia].
  pose proof (M 0 x eq_refl) as A. cbn in A. inversion A; subst; reflexivity.
Qed.
Lemma stop_starts_break : forall bs b2 j jl jr, length bs = length b2 -> marks jl j bs -> marks j jr b2 -> length bs <= jl -> length b2 <= jr ->
  numStartStops bs b2 = length bs - j.
Proof.
  induction bs as [|x bs IH]; intros [|y b2] j jl jr L M M2 J1 J2; try discriminate; [reflexivity|]. cbn [length] in *. injection L as L.
  cbn [numStartStops]. rewrite (IH b2 (Nat.pred j) (Nat.pred jl) (Nat.pred jr) L (marks_tl _ _ _ _ M) (marks_tl _ _ _ _ M2) ltac:(lia) ltac:(lia)).
  pose proof (M 0 x eq_refl) as A. pose proof (M2 0 y eq_refl) as B. destruct jl as [|jl]; [lia|]. destruct jr as [|jr]; [lia|].
  destruct j as [|j]; cbn in A, B; inversion A; subst; inversion B; subst; cbn; lia.
Qed.
Lemma not_allStop jl jr bs : marks jl jr bs -> 1 <= jr -> 1 <= length bs -> allStop bs = false.
Proof.
  intros M J L. destruct bs as [|x bs]; [cbn in L; lia|]. pose proof (M 0 x eq_refl) as A. destruct jr; [lia|]. cbn in A.
  unfold allStop. cbn [length Nat.eqb negb forallb andb]. inversion A; subst; reflexivity.
Qed.
Lemma written_fine : forall bss js jl prev, marked jl js bss -> Forall (fun bs => 1 <= length bs) bss -> (prev = None -> 2 <= length bss) ->
  tame_mei jl (option_map fst prev) (map (@length beam) bss) js ->
  left_fine prev jl (length (hd [] bss)) (hd 0 js) ->
  fine jl prev (combine (map (@length beam) bss) (writeBreaks bss)) js.
Proof.
  induction bss as [|bs bss IH]; intros js jl prev M F L T LF; [destruct js as [|? [|]]; destruct M|]. inversion F as [|? ? C F']; subst.
  destruct bss as [|b2 bss].
  - destruct js as [|j [|? ?]]; [destruct M| |destruct M]. destruct M as [-> M].
    destruct prev as [p|]; [|specialize (L eq_refl); cbn in L; lia]. cbn [hd] in LF. cbn. repeat split; [exact LF|destruct p; exact I].
  - destruct js as [|j js]; [destruct M|]. rewrite marked_cons in M. destruct M as (M1 & M2 & M3 & M4 & M5).
    cbn [map tame_mei] in T. destruct T as (T1 & T2 & T3). inversion F' as [|? ? C2 F2]; subst.
    set (k := if allStop b2 then None else let n := computeBreakSec bs b2 in if 0 <? n then Some n else None).
    change (writeBreaks (bs :: b2 :: bss)) with (k :: writeBreaks (b2 :: bss)).
    assert (K : right_fine (Some (length b2)) k jl (length bs) j /\ left_fine (Some (length bs, k)) j (length b2) (hd 0 js)).
    { assert (MB : exists jr, marks j jr b2 /\ (js = [0] \/ 1 <= jr) /\ hd 0 js = jr).
      { destruct bss as [|b3 bss]; [destruct js as [|j2 [|? ?]]; [destruct M5| |destruct M5]; destruct M5 as [-> M5]; exists 0; auto|].
        destruct js as [|j2 js]; [destruct M5|]. rewrite marked_cons in M5. exists j2. split; [apply M5|]. split; [right; apply M5|reflexivity]. }
      destruct MB as (jr & MB & MJ & HJ). rewrite HJ in *.
      destruct T1 as [T1|(E & T4 & T5 & T6)].
      - assert (k = None).
        { unfold k. destruct (allStop b2); [reflexivity|]. unfold computeBreakSec. destruct (Nat.eqb_spec (length bs) (length b2)) as [E|E]; [|reflexivity].
          cbn [negb]. rewrite (stop_starts_none bs b2 j jl jr M4 MB) by lia. reflexivity. }
        rewrite H. cbn. split; [exact T1|rewrite T1; reflexivity].
      - assert (J1 : 1 <= jr) by lia.
        assert (k = Some j).
        { unfold k. rewrite (not_allStop j jr b2 MB J1 C2). unfold computeBreakSec. rewrite (proj2 (Nat.eqb_eq _ _) E). cbn [negb].
          rewrite (stop_starts_break bs b2 j jl jr E M4 MB ltac:(lia) ltac:(lia)).
          replace (length bs - j =? 0) with false by (symmetry; apply Nat.eqb_neq; lia). cbv zeta.
          replace (length b2 - (length bs - j)) with j by lia. replace (0 <? j) with true by (symmetry; apply Nat.ltb_lt; lia). reflexivity. }
        rewrite H. cbn. lia. }
    destruct K as [K1 K2].
    specialize (IH js j (Some (length bs, k)) M5 F' ltac:(discriminate) T3 K2).
    assert (HD : exists w, combine (map (@length beam) (b2 :: bss)) (writeBreaks (b2 :: bss)) = (length b2, fst w) :: snd w).
    { cbn [map]. destruct bss; (eexists (_, _); reflexivity). }
    destruct HD as (w & HD). rewrite HD in IH. change (map (@length beam) (bs :: b2 :: bss)) with (length bs :: map (@length beam) (b2 :: bss)). cbn [combine]. rewrite HD.
    change (fine jl prev ((length bs, k) :: (length b2, fst w) :: snd w) (j :: js)) with
      (left_fine prev jl (length bs) j /\ right_fine (Some (length b2)) k jl (length bs) j /\ no_late prev (length bs) (Some (length b2)) /\
       (1 <= j /\ j <= length bs /\ j <= length b2) /\ fine j (Some (length bs, k)) ((length b2, fst w) :: snd w) js).
    cbn [hd] in LF. repeat split; try assumption. destruct prev as [[p pk]|]; cbn; [exact T2|exact I].
Qed.
(** A properly marked group that is written with its secondary breaks and read again
    has the same beams (the side of a hook apart), if it is as [tame_mei] says. *)
Theorem C107_roundtrip_partial : forall g bss js, 2 <= length bss -> marked 0 js bss -> Forall (fun bs => 1 <= length bs) bss ->
  tame_mei 0 None (map (@length beam) bss) js -> Forall2 (Forall2 same) bss (readBack g bss).
Proof.
  intros g bss js L M F T. unfold readBack. assert (W : length (writeBreaks bss) = length bss).
  { clear. induction bss as [|bs [|b2 bss] IH]; [reflexivity..|]. change (writeBreaks (bs :: b2 :: bss)) with ((if allStop b2 then None else let n := computeBreakSec bs b2 in if 0 <? n then Some n else None) :: writeBreaks (b2 :: bss)). cbn [length]. f_equal. exact IH. }
  set (xs := combine (map (@length beam) bss) (writeBreaks bss)).
  assert (X : map fst xs = map (@length beam) bss).
  { unfold xs. revert W. generalize (writeBreaks bss). clear. induction bss as [|bs bss IH]; intros [|w ws] W; try discriminate; [reflexivity|]. cbn. f_equal. apply IH. injection W as W. exact W. }
  assert (NE : xs <> []) by (intros E; rewrite E in X; destruct bss; [cbn in L; lia|discriminate]).
  rewrite readBeam_flat; [|exact NE|].
  2:{ rewrite <- (Forall_map fst (fun n => 1 <= n)). rewrite X. rewrite Forall_map. exact F. }
  apply (marked_same _ _ js 0); [|exact M|].
  - rewrite map_map, out_lengths. symmetry. exact X.
  - apply out_marked; [exact NE|]. apply written_fine; try assumption; [auto|]. reflexivity.
Qed.
Print Assumptions C107_roundtrip_partial.
Example C107_roundtrip_nonvacuous :
  let bss := [[BStart; BStart]; [BContinue; BStop]; [BContinue; BStart]; [BContinue; BStop]; [BStop]] in
  tame_mei 0 None (map (@length beam) bss) [2; 1; 2; 1; 0] /\ writeBreaks bss = [None; Some 1; None; None; None] /\ readBack false bss = bss.
Proof. cbn zeta. split; [cbn; lia|split; reflexivity]. Qed.

(** Properly marked groups that do not come back: an eighth and two sixteenths; and
    three sixteenths of which the last has a hook of its own, since a break before the
    last note is not written. *)
Theorem C107_roundtrip_refuted :
  (exists bss js, marked 0 js bss /\ ~ Forall2 (Forall2 same) bss (readBack false bss)) /\
  (exists bss js, marked 0 js bss /\ no_late_start None (map (@length beam) bss) /\ ~ Forall2 (Forall2 same) bss (readBack false bss)).
Proof.
  split.
  - exists [[BStart]; [BContinue; BStart]; [BStop; BStop]], [1; 2; 0]. split.
    + cbn. repeat split; try lia; intros [|[|b]] x H; try discriminate; try (destruct b; discriminate); injection H as <-; constructor.
    + intros F. cbn in F. repeat match goal with H : Forall2 _ (_ :: _) _ |- _ => inversion H; clear H; subst end.
      repeat match goal with H : same _ _ |- _ => cbn in H end. discriminate.
  - exists [[BStart; BStart]; [BContinue; BStop]; [BStop; BPartialLeft]], [2; 1; 0]. split; [|split; [cbn; lia|]].
    + cbn. repeat split; try lia; intros [|[|b]] x H; try discriminate; try (destruct b; discriminate); injection H as <-; constructor.
    + intros F. cbn in F. repeat match goal with H : Forall2 _ (_ :: _) _ |- _ => inversion H; clear H; subst end.
      repeat match goal with H : same _ _ |- _ => cbn in H end. discriminate.
Qed.
Print Assumptions C107_roundtrip_refuted.

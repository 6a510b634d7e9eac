(** Proofs about the whole-file analyses of ContentModel. *)
From Coq Require Import Lia QArith Qfield.
From Verif Require Import PyStr PyStrProofs RecipModel RecipProofs PitchModel PitchProofs ClefModel BarModel BarProofs ContentModel.
Local Close Scope Q_scope.

Definition at_pos {A} (r : list (list (option A))) (i j : nat) : option A := nth j (nth i r []) None.

Lemma at_map {A} (f : ctok -> option A) ts j t : nth_error ts j = Some t -> nth j (map f ts) None = f t.
Proof.
  revert j; induction ts as [|x ts IH]; intros [|j] H; try discriminate; cbn in *; [congruence|auto].
Qed.

Lemma Some_inj {A} (a b : A) : Some a = Some b -> a = b.
Proof. congruence. Qed.

(** The interpretation tokens of one track, in file order. *)
Definition interps (k : nat) (ls : list cline) : list str :=
  flat_map (fun l => match l with
                     | CInterp ts => map c_text (filter (fun t => c_kern t && Nat.eqb (c_track t) k) ts)
                     | _ => [] end) ls.

(** * Octave lines *)
(** How a line raising by [v] octaves is marked where it starts and where it stops: 8va,
    15ma above, 8ba, 15ba below, with an X at the stop. *)
Definition octave_name (start : bool) (v : Z) : str :=
  S_ "*" ++ (if start then [] else S_ "X")
  ++ (if (Z.abs v =? 1)%Z then S_ "8" else S_ "15")
  ++ (if (v <? 0)%Z then S_ "b" else if (v =? 1)%Z then S_ "v" else S_ "m") ++ S_ "a".
Definition octave_meaning (s : str) : option (bool * Z) :=
  find (fun m => str_eqb s (octave_name (fst m) (snd m)))
    (list_prod [true; false] [1; 2; -1; -2]%Z).

Lemma octave_mark_meaning s : octave_mark s = octave_meaning s.
Proof.
  unfold octave_mark.
  repeat match goal with |- (if ?c then _ else _) = _ => destruct c eqn:?E;
    [match goal with H : str_eqb s _ = true |- _ => apply str_eqb_eq in H; subst s; reflexivity end|] end.
  unfold octave_meaning.
  change (list_prod [true; false] [1; 2; -1; -2]%Z) with
    [(true, 1); (true, 2); (true, -1); (true, -2); (false, 1); (false, 2); (false, -1); (false, -2)]%Z.
  cbn [find fst snd].
  change (octave_name true 1) with (S_ "*8va"). change (octave_name false 1) with (S_ "*X8va").
  change (octave_name true 2) with (S_ "*15ma"). change (octave_name false 2) with (S_ "*X15ma").
  change (octave_name true (-1)) with (S_ "*8ba"). change (octave_name false (-1)) with (S_ "*X8ba").
  change (octave_name true (-2)) with (S_ "*15ba"). change (octave_name false (-2)) with (S_ "*X15ba").
  repeat match goal with H : str_eqb s _ = false |- _ => rewrite H; clear H end. reflexivity.
Qed.

(** What the marks of a track say. *)
Definition octave_history (k : nat) (ls : list cline) : list (bool * Z) :=
  flat_map (fun s => match octave_meaning s with Some m => [m] | None => [] end) (interps k ls).

Lemma octave_history_marks k ls : octave_history k ls
  = flat_map (fun s => match octave_mark s with Some m => [m] | None => [] end) (interps k ls).
Proof. unfold octave_history. apply flat_map_ext. intro s. now rewrite octave_mark_meaning. Qed.

Fixpoint close (v : Z) (st : list Z) : list Z :=
  match st with [] => [] | x :: st' => if Z.eqb x v then st' else x :: close v st' end.
(** The octave lines still open after a history, the most recently opened first. *)
Definition open_lines (h : list (bool * Z)) : list Z :=
  fold_left (fun (st : list Z) (m : bool * Z) => if fst m then snd m :: st else close (snd m) st) h [].

Definition well_closed (h : list (bool * Z)) : Prop :=
  forall h1 v h2, h = h1 ++ (false, v) :: h2 -> In v (open_lines h1).

Fixpoint oafter (st : ostate) (ls : list cline) : ostate :=
  match ls with
  | [] => st
  | CInterp ts :: ls' => oafter (fold_left ottava_interp ts st) ls'
  | _ :: ls' => oafter st ls'
  end.

Lemma ottavas_at ls : forall st i ts j t, nth_error ls i = Some (CData ts) -> nth_error ts j = Some t ->
  at_pos (ottavas st ls) i j = ottava_value (oafter st (firstn i ls)) t.
Proof.
  induction ls as [|l ls IH]; intros st i ts j t Hi Hj; [destruct i; discriminate|].
  destruct i as [|i]; cbn in Hi.
  - injection Hi as ->. unfold at_pos. cbn. apply at_map, Hj.
  - destruct l; unfold at_pos; cbn; eapply IH; eassumption.
Qed.

Definition ostep (p : Z * Z) (m : bool * Z) : Z * Z :=
  if fst m then (fst p + 1, snd m)%Z else (fst p - 1, 0)%Z.

Lemma ottava_interp_track ts k : forall st,
  let st' := fold_left ottava_interp ts st in
  (o_active st' k, o_state st' k) =
  fold_left ostep (flat_map (fun s => match octave_mark s with Some m => [m] | None => [] end)
                     (map c_text (filter (fun t => c_kern t && Nat.eqb (c_track t) k) ts)))
    (o_active st k, o_state st k).
Proof.
  induction ts as [|t ts IH]; intros st; [reflexivity|]. cbn [fold_left filter].
  cbn zeta in *. rewrite IH. unfold ottava_interp.
  destruct (c_kern t); cbn [andb negb]; [|reflexivity].
  destruct (Nat.eqb (c_track t) k) eqn:E.
  - apply Nat.eqb_eq in E. cbn [map flat_map]. destruct (octave_mark (c_text t)) as [[[] v]|]; cbn [app fold_left o_active o_state];
      unfold set_track; rewrite ?E, ?Nat.eqb_refl; reflexivity.
  - destruct (octave_mark (c_text t)) as [[[] v]|]; cbn [o_active o_state]; unfold set_track;
      rewrite ?(Nat.eqb_sym k), ?E; reflexivity.
Qed.

Lemma oafter_track ls k : forall st,
  (o_active (oafter st ls) k, o_state (oafter st ls) k) =
  fold_left ostep (octave_history k ls) (o_active st k, o_state st k).
Proof.
  setoid_rewrite octave_history_marks. induction ls as [|l ls IH]; intros st; [reflexivity|].
  destruct l; cbn [oafter interps flat_map app]; try apply IH.
  rewrite IH, flat_map_app, fold_left_app. f_equal. apply ottava_interp_track.
Qed.

Lemma octave_mark_nonzero s b v : octave_mark s = Some (b, v) -> v <> 0%Z.
Proof.
  unfold octave_mark. repeat match goal with |- context [if ?c then _ else _] => destruct c end;
    intros E; try discriminate; injection E; intros <- _; lia.
Qed.

Lemma close_length v st : In v st -> S (length (close v st)) = length st.
Proof.
  induction st as [|x st IH]; intros H; [contradiction|]. cbn. destruct (Z.eqb_spec x v); [reflexivity|].
  cbn. f_equal. apply IH. destruct H; [contradiction|assumption].
Qed.

Lemma octave_fold h : well_closed h ->
  fst (fold_left ostep h (0, 0)%Z) = Z.of_nat (length (open_lines h)) /\
  snd (fold_left ostep h (0, 0)%Z) =
    match rev h with (true, v) :: _ => v | _ => 0%Z end /\
  (forall v h', rev h = (true, v) :: h' -> exists r, open_lines h = v :: r).
Proof.
  induction h as [|[b v] h IH] using rev_ind; intros W; [split; [reflexivity|split; [reflexivity|discriminate]]|].
  assert (Wh : well_closed h).
  { intros h1 w h2 E. apply (W h1 w (h2 ++ [(b, v)])). rewrite E, <- app_assoc. reflexivity. }
  destruct (IH Wh) as [A [B _]].
  rewrite rev_unit. unfold open_lines in *. rewrite !fold_left_app. cbn [fold_left fst snd].
  destruct b; cbn [ostep fst snd].
  - rewrite A. cbn [length]. split; [lia|]. split; [reflexivity|]. intros w h' E. injection E as <- _. eexists; reflexivity.
  - rewrite A. assert (I : In v (open_lines h)) by (apply (W h v []); reflexivity).
    pose proof (close_length _ _ I) as L. unfold open_lines in L. unfold ostep. cbn [fst snd]. split; [lia|]. split; [reflexivity|discriminate].
Qed.

Lemma open_lines_nonzero h : Forall (fun m => snd m <> 0%Z) h -> Forall (fun v => v <> 0%Z) (open_lines h).
Proof.
  induction h as [|[b v] h IH] using rev_ind; intros H; [constructor|].
  apply Forall_app in H as [H1 H2]. specialize (IH H1). unfold open_lines in *. rewrite fold_left_app. cbn.
  inversion H2 as [|? ? H3 _]; subst. destruct b; [constructor; assumption|].
  revert IH. generalize (fold_left (fun (st : list Z) (m : bool * Z) => if fst m then snd m :: st else close (snd m) st) h []).
  intros l Hl. induction Hl; cbn; [constructor|]. destruct (Z.eqb x v); [assumption|constructor; assumption].
Qed.

Lemma octave_history_nonzero k ls : Forall (fun m => snd m <> 0%Z) (octave_history k ls).
Proof.
  rewrite Forall_forall. intros [b v] H. rewrite octave_history_marks in H. apply in_flat_map in H as [s [_ H]].
  destruct (octave_mark s) as [[b' v']|] eqn:E; [|contradiction]. destruct H as [H|[]]. injection H as -> ->.
  exact (octave_mark_nonzero _ _ _ E).
Qed.

Theorem octave_value ls i ts j t : nth_error ls i = Some (CData ts) -> nth_error ts j = Some t ->
  let h := octave_history (c_track t) (firstn i ls) in
  well_closed h -> (forall v h', h = h' ++ [(false, v)] -> open_lines h = []) ->
  at_pos (analyzeOttavas ls) i j =
  if c_kern t && negb (is_null (c_text t)) then hd_error (open_lines h) else None.
Proof.
  intros Hi Hj h W L. unfold analyzeOttavas. rewrite (ottavas_at _ _ _ _ _ _ Hi Hj).
  unfold ottava_value. destruct (c_kern t); [|reflexivity]. cbn [negb andb].
  pose proof (oafter_track (firstn i ls) (c_track t) ostart) as E. fold h in E. cbn [ostart o_active o_state] in E.
  destruct (octave_fold h W) as [A [B C]]. rewrite <- E in A, B. cbn [fst snd] in A, B. rewrite A, B.
  pose proof (octave_history_nonzero (c_track t) (firstn i ls)) as NZ. fold h in NZ. apply open_lines_nonzero in NZ.
  destruct (rev h) as [|[b v] h'] eqn:R.
  - assert (h = []) by (rewrite <- (rev_involutive h), R; reflexivity). rewrite H. cbn. destruct (is_null _); reflexivity.
  - assert (Eh : h = rev h' ++ [(b, v)]) by (rewrite <- (rev_involutive h), R; reflexivity).
    destruct b.
    + destruct (C v h' eq_refl) as [r Er]. rewrite Er in *. pose proof (Forall_inv NZ) as N0. cbn in N0.
      cbn [length hd_error]. destruct (Z.eqb_spec (Z.of_nat (S (length r))) 0) as [Z0|_]; [lia|].
      destruct (Z.eqb_spec v 0); [contradiction|]. destruct (is_null _); reflexivity.
    + rewrite (L v _ Eh). cbn. destruct (is_null _); reflexivity.
Qed.

(** * Rhythmic scaling *)
(** The scales given in one track, in file order. *)
Definition scale_texts (k : nat) (ls : list cline) : list str :=
  filter (starts_with (S_ "*rscale:")) (interps k ls).
Definition last_scale (k : nat) (ls : list cline) : Q :=
  match rev (scale_texts k ls) with
  | [] => 1%Q
  | s :: _ => match rscale_value s with Some q => q | None => 1%Q end
  end.

Fixpoint rafter (st : rstate) (ls : list cline) : option rstate :=
  match ls with
  | [] => Some st
  | CInterp ts :: ls' => match fold_left rscale_interp ts (Some st) with
                         | None => None | Some st' => rafter st' ls' end
  | _ :: ls' => rafter st ls'
  end.

Lemma rscales_at ls : forall st r i ts j t, rscales st ls = Some r ->
  nth_error ls i = Some (CData ts) -> nth_error ts j = Some t ->
  exists st', rafter st (firstn i ls) = Some st' /\
  at_pos r i j = if Z.eqb (r_active st') 0 then None else rscale_vis st' t.
Proof.
  induction ls as [|l ls IH]; intros st r i ts j t Hr Hi Hj; [destruct i; discriminate|].
  destruct i as [|i]; cbn in Hi.
  - injection Hi as ->. exists st. split; [reflexivity|]. cbn in Hr. destruct (rscales st ls); [|discriminate].
    injection Hr as <-. unfold at_pos. cbn. destruct (Z.eqb (r_active st) 0); apply (at_map _ _ _ _ Hj).
  - destruct l; cbn [rscales] in Hr.
    + destruct (fold_left rscale_interp ts0 (Some st)) as [st'|] eqn:E; [|discriminate].
      destruct (rscales st' ls) eqn:E2; [|discriminate]. injection Hr as <-.
      destruct (IH _ _ _ _ _ _ E2 Hi Hj) as [s [S1 S2]]. exists s. split; [|exact S2]. cbn. rewrite E. exact S1.
    + destruct (rscales st ls) eqn:E2; [|discriminate]. injection Hr as <-.
      destruct (IH _ _ _ _ _ _ E2 Hi Hj) as [s [S1 S2]]. exists s. split; [exact S1|exact S2].
    + destruct (rscales st ls) eqn:E2; [|discriminate]. injection Hr as <-.
      destruct (IH _ _ _ _ _ _ E2 Hi Hj) as [s [S1 S2]]. exists s. split; [exact S1|exact S2].
    + destruct (rscales st ls) eqn:E2; [|discriminate]. injection Hr as <-.
      destruct (IH _ _ _ _ _ _ E2 Hi Hj) as [s [S1 S2]]. exists s. split; [exact S1|exact S2].
Qed.

Lemma rscale_none ts : fold_left rscale_interp ts None = None.
Proof. induction ts; [reflexivity|assumption]. Qed.

(** The counter counts the tracks whose scale is not one. *)
Definition rinv (st : rstate) : Prop :=
  exists L, NoDup L /\ (forall k, In k L <-> ~ (r_scale st k == 1)%Q) /\ r_active st = Z.of_nat (length L).

Lemma Qeq_bool_false a b : Qeq_bool a b = false <-> ~ (a == b)%Q.
Proof.
  split; [apply Qeq_bool_neq|]. intros H. destruct (Qeq_bool a b) eqn:E; [|reflexivity].
  apply Qeq_bool_eq in E. contradiction.
Qed.

Lemma rinv_step t st st' : rinv st -> rscale_interp (Some st) t = Some st' -> rinv st'.
Proof.
  intros [L [ND [Hin Hl]]] H. unfold rscale_interp in H.
  destruct (negb (c_kern t)); [injection H as <-; exists L; auto|].
  destruct (negb (starts_with _ _)); [injection H as <-; exists L; auto|].
  destruct (rscale_value (c_text t)) as [v|]; [|discriminate]. cbv zeta in H.
  set (k := c_track t) in *. set (old := r_scale st k) in *.
  destruct (Qeq_bool v 1) eqn:Ev.
  - destruct (Qeq_bool old 1) eqn:Eo; cbn [negb] in H; [injection H as <-; exists L; auto|].
    apply Some_inj in H. subst st'.
    exists (remove Nat.eq_dec k L). apply Qeq_bool_false in Eo.
    split; [|split].
    + clear - ND. induction ND; cbn; [constructor|]. destruct (Nat.eq_dec k x); [assumption|].
      constructor; [|assumption]. intros I. apply in_remove in I. tauto.
    + intros k'. cbn [r_scale]. unfold set_track. destruct (Nat.eqb_spec k' k) as [->|N].
      * split; [intros I; exfalso; exact (remove_In _ _ _ I)|]. intros Q. exfalso. apply Q. reflexivity.
      * rewrite <- Hin. split; [intros I; apply in_remove in I; tauto|intros I; apply in_in_remove; assumption].
    + cbn [r_active]. rewrite Hl. assert (I : In k L) by (apply Hin; exact Eo).
      enough (S (length (remove Nat.eq_dec k L)) = length L) by lia.
      clear - ND I. induction ND as [|x L Hx ND IH]; [contradiction|]. cbn.
      destruct (Nat.eq_dec k x) as [->|N]; [rewrite notin_remove by assumption; reflexivity|].
      cbn. rewrite IH; [reflexivity|]. destruct I; [congruence|assumption].
  - apply Qeq_bool_false in Ev. apply Some_inj in H. subst st'.
    destruct (Qeq_bool old 1) eqn:Eo.
    + exists (k :: L). assert (Nk : ~ In k L).
      { intros I. apply Hin in I. apply Qeq_bool_eq in Eo. contradiction. }
      split; [constructor; assumption|]. split.
      * intros k'. cbn [r_scale]. unfold set_track. destruct (Nat.eqb_spec k' k) as [->|N].
        -- split; [intros _; exact Ev|intros _; left; reflexivity].
        -- rewrite <- Hin. split; [intros [I|I]; [congruence|exact I]|intros I; right; exact I].
      * cbn [r_active length]. rewrite Hl. lia.
    + apply Qeq_bool_false in Eo. exists L. split; [exact ND|]. split; [|exact Hl].
      intros k'. cbn [r_scale]. unfold set_track. destruct (Nat.eqb_spec k' k) as [->|N].
      * split; [intros _; exact Ev|intros _; apply Hin; exact Eo].
      * apply Hin.
Qed.

Lemma rinv_after ls : forall st st', rinv st -> rafter st ls = Some st' -> rinv st'.
Proof.
  induction ls as [|l ls IH]; intros st st' I H; [injection H as <-; exact I|].
  destruct l; cbn [rafter] in H; try (eapply IH; eassumption).
  destruct (fold_left rscale_interp ts (Some st)) as [s1|] eqn:E; [|discriminate].
  apply (IH s1 st'); [|exact H]. clear - I E. revert st I E.
  induction ts as [|t ts IH]; intros st I E; [injection E as <-; exact I|]. cbn [fold_left] in E.
  destruct (rscale_interp (Some st) t) as [s|] eqn:E1; [|rewrite rscale_none in E; discriminate].
  exact (IH s (rinv_step _ _ _ I E1) E).
Qed.

Definition rlast (q : Q) (ss : list str) : Q :=
  fold_left (fun q s => match rscale_value s with Some v => v | None => q end) ss q.

Lemma rafter_interp ts k : forall st st', fold_left rscale_interp ts (Some st) = Some st' ->
  (r_scale st' k == rlast (r_scale st k) (filter (starts_with (S_ "*rscale:"))
     (map c_text (filter (fun t => c_kern t && Nat.eqb (c_track t) k) ts))))%Q /\
  (forall s, In s (filter (starts_with (S_ "*rscale:"))
     (map c_text (filter (fun t => c_kern t && Nat.eqb (c_track t) k) ts))) -> rscale_value s <> None).
Proof.
  induction ts as [|t ts IH]; intros st st' H; [injection H as <-; split; [reflexivity|contradiction]|].
  cbn [fold_left] in H. destruct (rscale_interp (Some st) t) as [s|] eqn:E1; [|rewrite rscale_none in H; discriminate].
  destruct (IH _ _ H) as [I1 I2]. unfold rscale_interp in E1. cbn [filter].
  destruct (c_kern t); cbn [negb andb] in *; [|injection E1 as <-; split; assumption].
  destruct (Nat.eqb_spec (c_track t) k) as [Ek|Nk].
  - cbn [map filter]. destruct (starts_with (S_ "*rscale:") (c_text t)); cbn [negb] in E1; [|injection E1 as <-; split; assumption].
    destruct (rscale_value (c_text t)) as [v|] eqn:Ev; [|discriminate]. split.
    + rewrite I1. unfold rlast. cbn [fold_left]. rewrite Ev.
      assert (Q1 : (r_scale s k == v)%Q).
      { cbv zeta in E1. rewrite Ek in E1. destruct (Qeq_bool v 1) eqn:E2.
        - apply Qeq_bool_eq in E2. destruct (negb _) eqn:E3 in E1; apply Some_inj in E1; subst s.
          + cbn. unfold set_track. rewrite Nat.eqb_refl. rewrite E2. reflexivity.
          + apply negb_false_iff, Qeq_bool_eq in E3. rewrite E3, E2. reflexivity.
        - apply Some_inj in E1. subst s. cbn. unfold set_track. rewrite Nat.eqb_refl. reflexivity. }
      clear - Q1. revert Q1. generalize (r_scale s k). generalize v.
      generalize (filter (starts_with (S_ "*rscale:")) (map c_text (filter (fun t0 => c_kern t0 && (c_track t0 =? k)) ts))).
      intros l. induction l as [|x l IHl]; intros a b Hq; [exact Hq|]. cbn [fold_left].
      apply IHl. destruct (rscale_value x); [reflexivity|exact Hq].
    + intros x [<-|Hx]; [rewrite Ev; discriminate|apply I2, Hx].
  - destruct (negb (starts_with _ _)); [injection E1 as <-; split; assumption|].
    destruct (rscale_value (c_text t)) as [v|] eqn:Ev; [|discriminate]. cbv zeta in E1.
    assert (Q1 : r_scale s k = r_scale st k).
    { assert (Nk' : Nat.eqb k (c_track t) = false) by (apply Nat.eqb_neq; congruence).
      destruct (Qeq_bool v 1); [destruct (negb _)|]; apply Some_inj in E1; subst s; cbn; unfold set_track; rewrite ?Nk'; reflexivity. }
    rewrite <- Q1. split; assumption.
Qed.

Lemma interps_cons k l ls : interps k (l :: ls) =
  match l with CInterp ts => map c_text (filter (fun t => c_kern t && Nat.eqb (c_track t) k) ts) | _ => [] end
  ++ interps k ls.
Proof. destruct l; reflexivity. Qed.

Lemma rlast_eq ss : forall a b, (a == b)%Q -> (rlast a ss == rlast b ss)%Q.
Proof.
  induction ss as [|x l IHl]; intros a b Hq; [exact Hq|]. unfold rlast. cbn [fold_left].
  apply IHl. destruct (rscale_value x); [reflexivity|exact Hq].
Qed.

Lemma rafter_scale ls k : forall st st', rafter st ls = Some st' ->
  (r_scale st' k == rlast (r_scale st k) (scale_texts k ls))%Q /\
  (forall s, In s (scale_texts k ls) -> rscale_value s <> None).
Proof.
  unfold scale_texts. induction ls as [|l ls IH]; intros st st' H; [injection H as <-; split; [reflexivity|contradiction]|].
  rewrite interps_cons, filter_app.
  destruct l; cbn [rafter] in H; cbn [filter app]; try (eapply IH; eassumption).
  destruct (fold_left rscale_interp ts (Some st)) as [s1|] eqn:E; [|discriminate].
  destruct (rafter_interp _ k _ _ E) as [A1 A2]. destruct (IH _ _ H) as [B1 B2]. split.
  - rewrite B1. unfold rlast at 2. rewrite fold_left_app. apply rlast_eq, A1.
  - intros s I. apply in_app_or in I as [I|I]; auto.
Qed.

Lemma rlast_last ss q : (forall s, In s ss -> rscale_value s <> None) ->
  rlast q ss = match rev ss with [] => q | s :: _ => match rscale_value s with Some v => v | None => 1%Q end end.
Proof.
  induction ss as [|s ss IH] using rev_ind; intros H; [reflexivity|].
  rewrite rev_unit. unfold rlast. rewrite fold_left_app. cbn.
  destruct (rscale_value s) eqn:E; [reflexivity|]. exfalso. apply (H s); [apply in_or_app; right; left; reflexivity|exact E].
Qed.

Lemma Qeq_bool_proper a b c : (a == b)%Q -> Qeq_bool a c = Qeq_bool b c.
Proof.
  intros H. apply eq_true_iff_eq. rewrite !Qeq_bool_iff, H. reflexivity.
Qed.

Lemma durationToRecip_proper a b : (a == b)%Q -> durationToRecip a = durationToRecip b.
Proof.
  intros H. assert (H4 : (a / 4 == b / 4)%Q) by (rewrite H; reflexivity).
  assert (R : forall x y, (x == y)%Q -> qnum x = qnum y /\ qden x = qden y).
  { intros x y E. unfold qnum, qden. rewrite (Qred_complete x y E). split; reflexivity. }
  unfold durationToRecip. cbv zeta.
  destruct (R _ _ H4) as [-> ->].
  rewrite !(Qeq_bool_proper _ _ _ H4).
  assert (M : forall c, (a / 4 * c == b / 4 * c)%Q) by (intros c; rewrite H4; reflexivity).
  destruct (R _ _ (M (2 # 3)%Q)) as [-> ->]. destruct (R _ _ (M (4 # 7)%Q)) as [-> ->].
  destruct (R _ _ (M (8 # 15)%Q)) as [-> ->]. reflexivity.
Qed.

Theorem rscale_at ls r i ts j t : analyzeRScale ls = Some r ->
  nth_error ls i = Some (CData ts) -> nth_error ts j = Some t ->
  let q := last_scale (c_track t) (firstn i ls) in
  (c_kern t = true /\ is_null (c_text t) = false /\ (0 <= c_dur t)%Q /\ ~ (q == 1)%Q ->
   at_pos r i j = Some (durationToRecip (durationNoDots t * q)%Q ++ rep "."%char (dotCount (c_text t)))) /\
  (~ (c_kern t = true /\ is_null (c_text t) = false /\ (0 <= c_dur t)%Q /\ ~ (q == 1)%Q) ->
   at_pos r i j = None).
Proof.
  intros Hr Hi Hj q. destruct (rscales_at _ _ _ _ _ _ _ Hr Hi Hj) as [st [S1 S2]].
  assert (I : rinv st).
  { apply (rinv_after (firstn i ls) rstart); [|exact S1]. exists []. split; [constructor|]. split; [|reflexivity].
    intros k. split; [contradiction|]. intros N. apply N. reflexivity. }
  destruct (rafter_scale _ (c_track t) _ _ S1) as [Q1 Q2]. rewrite (rlast_last _ _ Q2) in Q1.
  cbn [rstart r_scale] in Q1. assert (Eq : (r_scale st (c_track t) == q)%Q).
  { rewrite Q1. unfold q, last_scale. destruct (rev _); reflexivity. }
  clear Q1 Q2 S1. rewrite S2. clear S2.
  destruct (Qeq_bool (r_scale st (c_track t)) 1) eqn:E1.
  - split.
    + intros [_ [_ [_ N]]]. exfalso. apply N. rewrite <- Eq. apply Qeq_bool_eq, E1.
    + intros _. destruct (Z.eqb _ _); [reflexivity|]. unfold rscale_vis. rewrite E1. reflexivity.
  - destruct (Z.eqb_spec (r_active st) 0) as [Z0|_].
    + exfalso. destruct I as [L [_ [Hin Hl]]]. assert (length L = 0) by lia.
      destruct L; [|discriminate]. apply Qeq_bool_false in E1. apply Hin in E1. exact E1.
    + unfold rscale_vis. rewrite E1. split.
      * intros [-> [-> [D _]]]. cbn [negb]. apply Qle_bool_iff in D. rewrite D. cbn [negb].
        rewrite (durationToRecip_proper (durationNoDots t * r_scale st (c_track t)) (durationNoDots t * q)); [reflexivity|].
        rewrite Eq. reflexivity.
      * intros N. destruct (c_kern t); [|reflexivity]. destruct (is_null _); [reflexivity|].
        destruct (Qle_bool 0 (c_dur t)) eqn:D; [|reflexivity]. exfalso. apply N. repeat split; auto.
        -- apply Qle_bool_iff, D.
        -- apply Qeq_bool_false in E1. rewrite <- Eq. exact E1.
Qed.

Theorem rscale_total ls : (forall k s, In s (scale_texts k ls) -> rscale_value s <> None) ->
  analyzeRScale ls <> None.
Proof.
  unfold analyzeRScale. generalize rstart. induction ls as [|l ls IH]; intros st H; [discriminate|].
  assert (Hr : forall k s, In s (scale_texts k ls) -> rscale_value s <> None).
  { intros k s I. apply (H k). unfold scale_texts in *. rewrite interps_cons, filter_app.
    apply in_or_app. right. exact I. }
  destruct l; cbn [rscales].
  - assert (N : fold_left rscale_interp ts (Some st) <> None).
    { assert (Ht : forall t, In t ts -> c_kern t = true -> starts_with (S_ "*rscale:") (c_text t) = true ->
                   rscale_value (c_text t) <> None).
      { intros t It Kt St. apply (H (c_track t)). unfold scale_texts. rewrite interps_cons, filter_app.
        apply in_or_app. left. apply filter_In. split; [|exact St]. apply in_map, filter_In.
        split; [exact It|]. rewrite Kt, Nat.eqb_refl. reflexivity. }
      clear - Ht. revert st. induction ts as [|t ts IH]; intros st; [discriminate|]. cbn [fold_left].
      assert (E : exists s, rscale_interp (Some st) t = Some s).
      { unfold rscale_interp. destruct (c_kern t) eqn:K; cbn [negb]; [|eexists; reflexivity].
        destruct (starts_with _ _) eqn:S1; cbn [negb]; [|eexists; reflexivity].
        pose proof (Ht t (or_introl eq_refl) K S1). destruct (rscale_value (c_text t)); [|contradiction].
        destruct (Qeq_bool _ 1); [destruct (negb _)|]; eexists; reflexivity. }
      destruct E as [s ->]. apply IH. intros t' I'. apply Ht. right. exact I'. }
    destruct (fold_left rscale_interp ts (Some st)) as [s|]; [|contradiction].
    specialize (IH s Hr). destruct (rscales s ls); [discriminate|contradiction].
  - specialize (IH st Hr). destruct (rscales st ls); [discriminate|contradiction].
  - specialize (IH st Hr). destruct (rscales st ls); [discriminate|contradiction].
  - specialize (IH st Hr). destruct (rscales st ls); [discriminate|contradiction].
Qed.

Lemma char_in_suffix c s : char_in c (s ++ [c]) = true.
Proof. rewrite char_in_app. cbn. rewrite Ascii.eqb_refl, orb_true_r. reflexivity. Qed.

(** Appending dots to a text without dots multiplies its value by the dot factor. *)
Theorem dotted_reads d k : (0 <= d)%Q -> char_in "."%char (durationToRecip d) = false ->
  reads_as (durationToRecip d ++ rep "."%char k) (d * dot_factor k)%Q.
Proof.
  intros H. unfold durationToRecip. cbv zeta.
  destruct (Z.eqb_spec (qnum (d / 4)) 1) as [E1|N1].
  { intros _. apply reads_plain. apply qnum_one in E1. rewrite E1. field. }
  assert (Zr : forall z s, Qeq_bool (d / 4) (inject_Z (2 ^ Z.of_nat (S z))) = true -> s = rep "0"%char (S z) ->
    reads_as (s ++ rep "."%char k) (d * dot_factor k)).
  { intros z s E ->. apply reads_zeros. apply Qeq_bool_eq in E. rewrite <- E. field. }
  destruct (Qeq_bool (d / 4) 2) eqn:E2; [intros _; apply (Zr 0); [exact E2|reflexivity]|].
  destruct (Qeq_bool (d / 4) 3) eqn:E3; [discriminate|].
  destruct (Qeq_bool (d / 4) 4) eqn:E4; [intros _; apply (Zr 1); [exact E4|reflexivity]|].
  destruct (Qeq_bool (d / 4) 6) eqn:E6; [discriminate|].
  destruct (Qeq_bool (d / 4) 8) eqn:E8; [intros _; apply (Zr 2); [exact E8|reflexivity]|].
  destruct (Qeq_bool (d / 4) 12) eqn:E12; [discriminate|].
  destruct (Z.eqb_spec (qnum (d / 4)) 0) as [E0|N0].
  { intros _. exists 0%Q. split.
    - reflexivity.
    - pose proof (qfrac_red (d / 4)) as R. rewrite E0 in R.
      assert (D0 : (d == 0)%Q) by (rewrite <- (qmul4 d _ (Qeq_sym _ _ R)); reflexivity).
      rewrite D0. ring. }
  destruct (Z.eqb (qnum (d / 4 * (2 # 3))) 1); [rewrite (char_in_suffix "."%char); discriminate|].
  destruct (Z.eqb (qnum (d / 4 * (4 # 7))) 1); [rewrite char_in_app; cbn; rewrite orb_true_r; discriminate|].
  destruct (Z.eqb (qnum (d / 4 * (8 # 15))) 1); [rewrite char_in_app; cbn; rewrite orb_true_r; discriminate|].
  intros _.
  assert (H0 : (0 <= d / 4)%Q).
  { apply Qle_shift_div_l; [reflexivity|]. rewrite Qmult_0_l. exact H. }
  rewrite show_Z_nonneg by (apply qnum_nonneg, H0). rewrite <- !app_assoc. apply reads_pct.
  rewrite Z2N.id by (apply qnum_nonneg, H0). rewrite qfrac_red. field.
Qed.

Lemma dotted_durationNoDots t : (durationNoDots t * dot_factor (dotCount (c_text t)) == c_dur t)%Q.
Proof.
  unfold durationNoDots, dot_factor. destruct (dotCount (c_text t)) as [|n]; [cbn; field|].
  assert (P : (0 < 2 ^ Z.of_nat (S n))%Z) by (apply Z.pow_pos_nonneg; lia).
  assert (P2 : (0 < 2 ^ (Z.of_nat (S n) + 1) - 1)%Z).
  { rewrite Z.pow_add_r by lia. lia. }
  field. split; intros E; apply (proj2 (inject_Z_injective _ 0)) in E || idtac.
  - unfold Qeq in E. cbn in E. lia.
  - unfold Qeq in E. cbn in E. lia.
Qed.

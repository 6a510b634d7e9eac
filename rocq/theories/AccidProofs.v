(** Proofs about printed accidentals: a performer who reads the key signatures,
    barlines and printed accidentals plays the encoded notes. *)
From Coq Require Import Lia.
From Verif Require Import PyStr PyStrProofs PitchModel BarModel AccidModel.

(** * The performer *)
(** What the performer remembers for each staff: the key signature in force and, for
    each staff position, the alteration in force. *)
Record perf := mkP { p_key : nat -> Z -> Z; p_now : nat -> Z -> Z }.
Definition p0 : perf := mkP (fun _ _ => 0%Z) (fun _ _ => 0%Z).

(** A key signature replaces everything on its staff. *)
Definition see_key (p : perf) (t : tok) : perf :=
  if t_kern t && starts_with (S_ "*k[") (t_text t)
  then let ks := fillKeySignature (t_text t) in
       mkP (upd1 (p_key p) (t_track t) ks) (upd1 (p_now p) (t_track t) (fun d => ks (d mod 7)%Z))
  else p.
(** A visible barline restores the key signature on its staff. *)
Definition see_bar (p : perf) (t : tok) : perf :=
  if t_kern t && negb (char_in "-"%char (t_text t))
  then mkP (p_key p) (upd1 (p_now p) (t_track t) (fun d => p_key p (t_track t) (d mod 7)%Z))
  else p.
(** A note is played with the alteration printed on it, which then holds for its
    position; without one, with the alteration in force. *)
Definition play (p : perf) (n : note) : perf * Z :=
  if n_visual n
  then (mkP (p_key p) (upd2 (p_now p) (n_track n) (n_pos n) (n_accid n)), n_accid n)
  else (p, p_now p (n_track n) (n_pos n)).
Fixpoint play_all (p : perf) (ns : list note) : perf * list (note * Z) :=
  match ns with
  | [] => (p, [])
  | n :: ns' => let '(p1, h) := play p n in
                let '(p2, hs) := play_all p1 ns' in (p2, (n, h) :: hs)
  end.
Definition perform_line (p : perf) (l : aline) (ns : list note) : perf * list (note * Z) :=
  match l with
  | Interpretation ts => (fold_left see_key ts p, [])
  | BarLine ts => (fold_left see_bar ts p, [])
  | DataLine _ => play_all p ns
  | OtherLine => (p, [])
  end.
Fixpoint perform (p : perf) (ls : list aline) (nss : list (list note)) : list (note * Z) :=
  match ls, nss with
  | l :: ls', ns :: nss' => let '(p1, hs) := perform_line p l ns in hs ++ perform p1 ls' nss'
  | _, _ => []
  end.

(** * The notes of a line, from the text alone *)
Definition spec_sub (t : nat) (chord : bool) (s : str) : list (nat * Z * Z * bool) :=
  let s0 := if chord then replace (S_ "r") (S_ "R") s else s in
  if (kernToBase7 s0 <? 0)%Z then []
  else [(t, kernToBase7 s0, kernToAccidentalCount s0,
         char_in "_" (if negb (contains (S_ "yy") s0) && contains (S_ "ny") s0 then replace (S_ "ny") [] s0 else s0)
         || char_in "]" (if negb (contains (S_ "yy") s0) && contains (S_ "ny") s0 then replace (S_ "ny") [] s0 else s0))].
Definition spec_tok (t : tok) : list (nat * Z * Z * bool) :=
  if negb (t_kern t) || str_eqb (t_text t) (S_ ".") || char_in "r" (t_text t) then []
  else let subs := split_char " " (t_text t) in
       flat_map (spec_sub (t_track t) (1 <? length subs)) subs.
Definition spec_line (l : aline) : list (nat * Z * Z * bool) :=
  match l with DataLine ts => flat_map spec_tok ts | _ => [] end.
Definition strip (n : note) : nat * Z * Z * bool := (n_track n, n_pos n, n_accid n, n_tied n).

Lemma process_subtoken_notes sigs st t g c s lay :
  map strip (snd (process_subtoken sigs st t g c s lay)) = spec_sub t c s.
Proof.
  unfold process_subtoken, spec_sub.
  set (s0 := if c then replace _ _ s else s). destruct (kernToBase7 s0 <? 0)%Z; [reflexivity|].
  set (s1 := if negb (contains (S_ "yy") s0) && _ then replace _ _ s0 else s0).
  set (st1 := if _ : bool then mkA _ _ _ _ _ else st).
  destruct ((char_in "_" s1 || char_in "]" s1) && _ && _ && _) eqn:E.
  - apply andb_true_iff in E as [E _]. apply andb_true_iff in E as [E _].
    apply andb_true_iff in E as [E _]. rewrite E. reflexivity.
  - destruct (decide _ t (kernToBase7 s0) (kernToAccidentalCount s0) g s1). reflexivity.
Qed.

Lemma process_subtokens_notes sigs t g c lay subs : forall st k,
  map strip (snd (process_subtokens sigs st t g c k subs lay)) = flat_map (spec_sub t c) subs.
Proof.
  induction subs as [|s subs IH]; intros st k; [reflexivity|]. cbn [process_subtokens flat_map].
  pose proof (process_subtoken_notes sigs st t g c s (lay k)) as H.
  destruct (process_subtoken sigs st t g c s (lay k)) as [st1 n1].
  specialize (IH st1 (S k)). destruct (process_subtokens sigs st1 t g c (S k) subs lay) as [st2 n2].
  cbn [snd] in *. rewrite map_app, H, IH. reflexivity.
Qed.

Lemma process_tokens_notes sigs ts : forall st last,
  map strip (snd (process_tokens sigs st last ts)) = flat_map spec_tok ts.
Proof.
  induction ts as [|t ts IH]; intros st last; [reflexivity|]. cbn [process_tokens flat_map].
  unfold spec_tok at 1.
  destruct (negb (t_kern t) || str_eqb (t_text t) (S_ ".") || char_in "r" (t_text t)).
  - apply IH.
  - set (st0 := if match last with Some l => Nat.eqb l (t_track t) | None => false end then st else mkA _ _ _ _ _).
    pose proof (process_subtokens_notes sigs (t_track t) (char_in "q" (t_text t))
      (1 <? length (split_char " " (t_text t))) (t_layout t) (split_char " " (t_text t)) st0 0) as H.
    destruct (process_subtokens _ _ _ _ _ _ _ _) as [st1 n1].
    specialize (IH st1 (Some (t_track t))). destruct (process_tokens sigs st1 (Some (t_track t)) ts) as [st2 n2].
    cbn [snd] in *. rewrite map_app, H, IH. reflexivity.
Qed.

Lemma analyze_notes sigs ls : forall st, map (map strip) (analyze sigs st ls) = map spec_line ls.
Proof.
  induction ls as [|l ls IH]; intros st; [reflexivity|]. cbn [analyze map].
  destruct l as [ts|ts|ts|]; cbn [process_line]; try (cbn [map]; rewrite IH; reflexivity).
  set (stx := mkA _ _ _ _ _). pose proof (process_tokens_notes sigs ts stx None) as H.
  destruct (process_tokens sigs stx None ts) as [st1 ns]. cbn [map snd] in *. rewrite H, IH. reflexivity.
Qed.

(** * The invariant *)
Local Open Scope Z_scope.
Definition ok (x p : Z) : Prop := x = p \/ x < -500.
Definition inv (st : astate) (p : perf) : Prop :=
  (forall t pc, keysigs st t pc = p_key p t pc) /\
  (forall t d, 0 <= d -> ok (dstates st t d) (p_now p t d) /\ ok (gdstates st t d) (p_now p t d)).

Lemma upd2_spec f t d v t' d' :
  upd2 f t d v t' d' = if Nat.eqb t' t && Z.eqb d' d then v else f t' d'.
Proof.
  unfold upd2, upd1, updz. destruct (Nat.eqb t' t) eqn:E; [|reflexivity].
  apply Nat.eqb_eq in E. subst. reflexivity.
Qed.

Lemma accidental_range e : 0 <= base40ToDiatonic e -> -2 <= base40ToAccidental e <= 2.
Proof.
  unfold base40ToDiatonic, base40ToAccidental. destruct (e <? 0); [lia|].
  pose proof (Z.mod_pos_bound e 40 ltac:(lia)) as B. revert B. generalize (e mod 40). intros c B.
  intros H. unfold z_in in H. cbn [existsb] in H.
  assert (C : (c = 5 \/ c = 11 \/ c = 22 \/ c = 28 \/ c = 34) \/
              -2 <= nth (Z.to_nat c) accidental_table 0 <= 2).
  { assert (c = Z.of_nat (Z.to_nat c)) by lia. revert H0. assert (L : (Z.to_nat c < 40)%nat) by lia.
    revert L. generalize (Z.to_nat c). intros n L ->. clear H B.
    do 40 (destruct n as [|n]; [cbn; lia|]). lia. }
  destruct C as [C|C]; [|exact C]. exfalso.
  repeat destruct C as [->|C]; try (subst c); cbn in H; lia.
Qed.

Lemma inv_force st p t d v : inv st p -> (0 <= d -> v < -500) -> inv (force st t d v) p.
Proof.
  intros [K D] Hv. split; [exact K|]. intros t' d' H. cbn [force dstates gdstates].
  split; [|apply D, H]. rewrite upd2_spec. destruct (Nat.eqb t' t && Z.eqb d' d) eqn:E; [|apply D, H].
  apply andb_true_iff in E as [_ E]. apply Z.eqb_eq in E. subst. right. apply Hv, H.
Qed.

Lemma inv_ornament st p t b40 i : inv st p -> inv (ornament st t b40 i) p.
Proof.
  intros H. unfold ornament. destruct (Z.eqb _ _); [exact H|]. apply inv_force; [exact H|].
  intros Hd. pose proof (accidental_range _ Hd). lia.
Qed.

Lemma inv_ornaments st p t b40 s : inv st p -> char_in "$" s = false -> char_in "S" s = false ->
  inv (ornaments st t b40 s) p.
Proof.
  intros H H1 H2. unfold ornaments. rewrite H1, H2.
  repeat match goal with |- context [if ?b then _ else _] => destruct b; [apply inv_ornament, H|] end.
  exact H.
Qed.

Lemma keys_ornaments st t b40 s : forall t' pc, keysigs (ornaments st t b40 s) t' pc = keysigs st t' pc.
Proof.
  intros t' pc.
  assert (O : forall i, keysigs (ornament st t b40 i) t' pc = keysigs st t' pc).
  { intros i. unfold ornament. destruct (Z.eqb _ _); reflexivity. }
  assert (T : forall inv, keysigs (turn st t b40 s inv) t' pc = keysigs st t' pc).
  { intros i. unfold turn. destruct (Z.eqb _ _), (Z.eqb _ _); reflexivity. }
  unfold ornaments.
  repeat match goal with |- context [if ?b then _ else _] => destruct b; [solve [apply O|apply T]|] end.
  reflexivity.
Qed.

(** Playing a note after the analysis has decided about it. *)
Lemma decide_play st p t d accid g s st' shown extra tied : inv st p -> 0 <= d -> -400 < accid < 400 ->
  decide st t d accid g s = (st', shown) ->
  let '(p', h) := play p (mkNote t d accid tied (shown || extra)) in
  inv st' p' /\ h = accid.
Proof.
  intros [K D] Hd Ha H. unfold play. cbn [n_visual n_track n_pos n_accid].
  (* printing when the state already agrees *)
  assert (Same : p_now p t d = accid -> forall st1, inv st1 p ->
    forall b : bool, let '(p', h) := (if b then (mkP (p_key p) (upd2 (p_now p) t d accid), accid)
                                      else (p, p_now p t d)) in inv st1 p' /\ h = accid).
  { intros E st1 [K1 D1] b. destruct b; [|split; [split; assumption|exact E]].
    split; [|reflexivity]. split; [exact K1|]. intros t' d' H'. cbn [p_now]. rewrite upd2_spec.
    destruct (Nat.eqb t' t && Z.eqb d' d) eqn:E2; [|apply D1, H'].
    apply andb_true_iff in E2 as [E2 E3]. apply Nat.eqb_eq in E2. apply Z.eqb_eq in E3. subst t' d'.
    rewrite <- E. apply D1, H'. }
  unfold decide in H.
  destruct (g && negb (accid =? gdstates st t d)) eqn:B1.
  - apply pair_equal_spec in H as [<- <-]. cbn [orb]. split; [|reflexivity]. split; [exact K|].
    intros t' d' H'. cbn [dstates gdstates p_now]. rewrite !upd2_spec.
    destruct (Nat.eqb t' t && Z.eqb d' d); [|apply D, H']. split; [right; lia|left; reflexivity].
  - destruct (negb g && _) eqn:B2.
    + apply pair_equal_spec in H as [<- <-]. cbn [orb]. split; [|reflexivity]. split; [exact K|].
      intros t' d' H'. cbn [dstates gdstates p_now]. rewrite !upd2_spec.
      destruct (Nat.eqb t' t && Z.eqb d' d); [|apply D, H']. split; left; reflexivity.
    + assert (E : p_now p t d = accid).
      { destruct (D t d Hd) as [D1 D2]. destruct g.
        - rewrite andb_true_l in B1. apply negb_false_iff, Z.eqb_eq in B1. destruct D2; lia.
        - cbn [negb andb] in B2. apply orb_false_iff in B2 as [_ B2]. apply negb_false_iff, Z.eqb_eq in B2.
          destruct D1; lia. }
      assert (Hst : st' = st).
      { destruct (_ && _) in H; [apply pair_equal_spec in H as [<- _]; reflexivity|].
        destruct (negb _) in H; apply pair_equal_spec in H as [<- _]; reflexivity. }
      subst st'. apply (Same E st (conj K D) (shown || extra)).
Qed.

Definition no_turn (s : str) : Prop := char_in "$" s = false /\ char_in "S" s = false.

Lemma char_in_replace c old new s : char_in c s = false -> char_in c new = false ->
  char_in c (replace old new s) = false.
Proof.
  unfold replace. intros H N. generalize (S (length s)). intros fuel. revert s H.
  induction fuel as [|fuel IH]; intros s H; [exact H|]. cbn [replace_fuel].
  destruct s as [|x s]; [reflexivity|]. destruct (starts_with old (x :: s)).
  - rewrite char_in_app, N. cbn [orb]. apply IH.
    destruct (char_in c (skipn (length old) (x :: s))) eqn:E; [|reflexivity]. exfalso.
    rewrite <- (firstn_skipn (length old) (x :: s)), char_in_app, E, orb_true_r in H. discriminate.
  - change (char_in c (x :: s)) with (Ascii.eqb c x || char_in c s) in H.
    apply orb_false_iff in H as [H1 H2].
    change (Ascii.eqb c x || char_in c (replace_fuel fuel old new s) = false).
    rewrite H1. apply IH, H2.
Qed.

Lemma subtoken_play sigs st p t g c s lay : inv st p -> no_turn s ->
  Forall (fun n => -400 < n_accid n < 400) (snd (process_subtoken sigs st t g c s lay)) ->
  let '(st', ns) := process_subtoken sigs st t g c s lay in
  let '(p', hs) := play_all p ns in
  inv st' p' /\ Forall (fun nh => n_tied (fst nh) = false -> snd nh = n_accid (fst nh)) hs.
Proof.
  intros I [T1 T2] F. unfold process_subtoken in *.
  set (s0 := if c then replace _ _ s else s) in *.
  destruct (kernToBase7 s0 <? 0) eqn:Ed; [cbn; split; [exact I|constructor]|].
  set (s1 := if negb (contains (S_ "yy") s0) && _ then replace _ _ s0 else s0) in *.
  set (d := kernToBase7 s0) in *. set (accid := kernToAccidentalCount s0) in *.
  set (tied := char_in "_" s1 || char_in "]" s1) in *.
  set (st1 := if tied && _ && _ then mkA _ _ _ _ _ else st) in *.
  assert (A : -400 < accid < 400).
  { destruct (tied && _ && _ && _) in F; [apply Forall_inv in F; exact F|].
    destruct (decide _ t d accid g s1) in F. apply Forall_inv in F; exact F. }
  assert (N0 : no_turn s0) by (unfold s0; destruct c; [split; apply char_in_replace; assumption || reflexivity|split; assumption]).
  assert (N1 : no_turn s1).
  { unfold s1. destruct N0. destruct (negb _ && _); [split; apply char_in_replace; assumption || reflexivity|split; assumption]. }
  assert (I1 : inv st1 p).
  { unfold st1. destruct (tied && _ && _); [|exact I]. destruct I as [K D]. split; [exact K|].
    intros t' d' H. cbn [dstates gdstates]. rewrite !upd2_spec.
    destruct (Nat.eqb t' t && Z.eqb d' d); [split; right; lia|apply D, H]. }
  destruct (tied && _ && _ && _) eqn:E.
  - cbn [play_all play n_visual]. split; [exact I1|]. constructor; [|constructor]. cbn. discriminate.
  - pose proof (inv_ornaments st1 p t (kernToBase40 s0) s1 I1 (proj1 N1) (proj2 N1)) as I2.
    destruct (decide (ornaments st1 t (kernToBase40 s0) s1) t d accid g s1) as [st3 shown] eqn:Dc.
    assert (Dp : 0 <= d) by lia.
    pose proof (decide_play _ p t d accid g s1 st3 shown
                  (existsb (fun sig => contains sig s1) sigs || lay) tied I2 Dp A Dc) as P.
    cbn [play_all]. rewrite <- orb_assoc. destruct (play p _) as [p' h]. destruct P as [P1 P2].
    split; [exact P1|]. constructor; [|constructor]. cbn. intros _. exact P2.
Qed.

Lemma play_all_app a b : forall p, play_all p (a ++ b) =
  let '(p1, h1) := play_all p a in let '(p2, h2) := play_all p1 b in (p2, h1 ++ h2).
Proof.
  induction a as [|n a IH]; intros p; cbn [app play_all].
  - destruct (play_all p b). reflexivity.
  - destruct (play p n) as [p1 h]. rewrite IH. destruct (play_all p1 a) as [p2 h2].
    destruct (play_all p2 b). reflexivity.
Qed.

Definition heard_right (hs : list (note * Z)) : Prop :=
  Forall (fun nh => n_tied (fst nh) = false -> snd nh = n_accid (fst nh)) hs.
Definition small (ns : list note) : Prop := Forall (fun n => -400 < n_accid n < 400) ns.

Lemma subtokens_play sigs t g c lay subs : Forall no_turn subs -> forall st p k, inv st p ->
  small (snd (process_subtokens sigs st t g c k subs lay)) ->
  let '(st', ns) := process_subtokens sigs st t g c k subs lay in
  let '(p', hs) := play_all p ns in inv st' p' /\ heard_right hs.
Proof.
  induction 1 as [|s subs T _ IH]; intros st p k I F; [split; [exact I|constructor]|].
  cbn [process_subtokens] in *. pose proof (subtoken_play sigs st p t g c s (lay k) I T) as P.
  destruct (process_subtoken sigs st t g c s (lay k)) as [st1 n1] eqn:E1.
  specialize (IH st1). destruct (process_subtokens sigs st1 t g c (S k) subs lay) as [st2 n2] eqn:E2.
  cbn [snd] in *. unfold small in F. rewrite Forall_app in F. destruct F as [F1 F2]. specialize (P F1).
  rewrite play_all_app. destruct (play_all p n1) as [p1 h1]. destruct P as [P1 P2].
  specialize (IH p1 (S k) P1). rewrite E2 in IH. specialize (IH F2).
  destruct (play_all p1 n2) as [p2 h2]. destruct IH as [Q1 Q2]. split; [exact Q1|].
  unfold heard_right. rewrite Forall_app. split; assumption.
Qed.

Definition tok_no_turn (t : tok) : Prop := t_kern t = true -> no_turn (t_text t).

Lemma split_no_char c sep s : char_in c s = false -> Forall (fun w => char_in c w = false) (split_char sep s).
Proof.
  induction s as [|x s IH]; intros H; [repeat constructor|].
  change (Ascii.eqb c x || char_in c s = false) in H. apply orb_false_iff in H as [H1 H2].
  specialize (IH H2). cbn [split_char]. destruct (Ascii.eqb x sep); [constructor; [reflexivity|exact IH]|].
  destruct (split_char sep s) as [|w ws]; [repeat constructor; cbn; rewrite H1; reflexivity|].
  inversion IH as [|? ? W1 W2]; subst. constructor; [|exact W2].
  change (Ascii.eqb c x || char_in c w = false). rewrite H1, W1. reflexivity.
Qed.

Lemma tokens_play sigs ts : Forall tok_no_turn ts -> forall st p last, inv st p ->
  small (snd (process_tokens sigs st last ts)) ->
  let '(st', ns) := process_tokens sigs st last ts in
  let '(p', hs) := play_all p ns in inv st' p' /\ heard_right hs.
Proof.
  induction 1 as [|t ts T _ IH]; intros st p last I F; [split; [exact I|constructor]|].
  cbn [process_tokens] in *.
  destruct (negb (t_kern t) || str_eqb (t_text t) (S_ ".") || char_in "r" (t_text t)) eqn:Sk.
  - apply IH; assumption.
  - set (st0 := if match last with Some l => Nat.eqb l (t_track t) | None => false end then st else mkA _ _ _ _ _) in *.
    assert (I0 : inv st0 p) by (unfold st0; destruct (match last with Some l => Nat.eqb l (t_track t) | None => false end); exact I).
    apply orb_false_iff in Sk as [Sk _]. apply orb_false_iff in Sk as [Sk _]. apply negb_false_iff in Sk.
    destruct (T Sk) as [T1 T2].
    assert (NT : Forall no_turn (split_char " " (t_text t))).
    { pose proof (split_no_char _ " " _ T1) as A. pose proof (split_no_char _ " " _ T2) as B.
      rewrite Forall_forall in *. intros w Hw. split; [apply A, Hw|apply B, Hw]. }
    pose proof (subtokens_play sigs (t_track t) (char_in "q" (t_text t))
      (1 <? length (split_char " " (t_text t)))%nat (t_layout t) _ NT st0 p 0%nat I0) as P.
    destruct (process_subtokens _ _ _ _ _ _ _ _) as [st1 n1].
    specialize (IH st1). destruct (process_tokens sigs st1 (Some (t_track t)) ts) as [st2 n2] eqn:E2.
    cbn [snd] in *. unfold small in F. rewrite Forall_app in F. destruct F as [F1 F2]. specialize (P F1).
    rewrite play_all_app. destruct (play_all p n1) as [p1 h1]. destruct P as [P1 P2].
    specialize (IH p1 (Some (t_track t)) P1). rewrite E2 in IH. specialize (IH F2).
    destruct (play_all p1 n2) as [p2 h2]. destruct IH as [Q1 Q2]. split; [exact Q1|].
    unfold heard_right. rewrite Forall_app. split; assumption.
Qed.

Lemma inv_keys ts : forall st p, inv st p -> inv (fold_left interp_token ts st) (fold_left see_key ts p).
Proof.
  induction ts as [|t ts IH]; intros st p I; [exact I|]. cbn [fold_left]. apply IH.
  unfold interp_token, see_key. destruct (t_kern t && _); [|exact I]. destruct I as [K D].
  split; cbn [keysigs p_key dstates gdstates p_now].
  - intros t' pc. unfold upd1. destruct (Nat.eqb t' (t_track t)); [reflexivity|apply K].
  - intros t' d H. unfold upd1. destruct (Nat.eqb t' (t_track t)); [split; left; reflexivity|apply D, H].
Qed.

Lemma inv_bars ts : forall st p, inv st p -> inv (fold_left bar_token ts st) (fold_left see_bar ts p).
Proof.
  induction ts as [|t ts IH]; intros st p I; [exact I|]. cbn [fold_left]. apply IH.
  unfold bar_token, see_bar. destruct (t_kern t && _); [|exact I]. destruct I as [K D].
  split; cbn [keysigs p_key dstates gdstates p_now]; [exact K|].
  intros t' d H. unfold upd1. destruct (Nat.eqb t' (t_track t)); [|apply D, H].
  unfold reset_states. rewrite K. split; left; reflexivity.
Qed.

Definition line_no_turn (l : aline) : Prop :=
  match l with DataLine ts => Forall tok_no_turn ts | _ => True end.

Theorem performed sigs ls : Forall line_no_turn ls -> forall st p, inv st p ->
  Forall small (analyze sigs st ls) ->
  heard_right (perform p ls (analyze sigs st ls)).
Proof.
  induction 1 as [|l ls T _ IH]; intros st p I F; [constructor|].
  cbn [analyze perform] in *.
  destruct (process_line sigs st l) as [st1 ns] eqn:E. inversion F as [|? ? F1 F2]; subst.
  destruct l as [ts|ts|ts|]; cbn [process_line perform_line] in *.
  - apply pair_equal_spec in E as [<- <-]. cbn [app]. apply IH; [apply inv_keys, I|exact F2].
  - apply pair_equal_spec in E as [<- <-]. cbn [app]. apply IH; [apply inv_bars, I|exact F2].
  - set (stx := mkA _ _ _ _ _) in E. assert (Ix : inv stx p) by exact I.
    pose proof (tokens_play sigs ts T stx p None Ix) as P.
    destruct (process_tokens sigs stx None ts) as [st2 ns2]. apply pair_equal_spec in E as [<- <-]. specialize (P F1).
    destruct (play_all p ns2) as [p1 h1]. destruct P as [P1 P2].
    unfold heard_right. rewrite Forall_app. split; [exact P2|]. apply IH; [|exact F2].
    destruct P1 as [K D]. split; assumption.
  - apply pair_equal_spec in E as [<- <-]. cbn [app]. apply IH; assumption.
Qed.

(** * Reading a key signature *)
From Verif Require Import BarProofs.

Lemma contains_cons p c s : contains p (c :: s) = starts_with p (c :: s) || contains p s.
Proof. reflexivity. Qed.

Lemma accid_char_eqb a b : Ascii.eqb (accid_char a) (accid_char b) = true <-> a = b.
Proof. destruct a, b; cbn; split; congruence. Qed.

Lemma contains_items l a is : is_letter l = true -> forallb item_ok is = true ->
  contains [l; accid_char a] (spell is ++ S_ "]") = true <-> In (l, a) is.
Proof.
  intros Hl. induction is as [|[c b] is IH]; intros H.
  - split; [|contradiction]. cbn [spell map concat app S_ list_ascii_of_string].
    rewrite contains_cons. cbn [starts_with]. intros E. apply orb_true_iff in E as [E|E].
    + apply andb_true_iff in E as [_ E]. discriminate.
    + discriminate.
  - cbn [forallb item_ok fst] in H. apply andb_true_iff in H as [H1 H2]. specialize (IH H2).
    change (spell ((c, b) :: is)) with (c :: accid_char b :: spell is). cbn [app].
    rewrite contains_cons, contains_skip by (apply letter_not_accid, Hl).
    rewrite orb_true_iff, IH. cbn [starts_with In].
    split.
    + intros [E|E]; [|right; exact E]. left. apply andb_true_iff in E as [E1 E2].
      rewrite andb_true_r in E2.
      apply Ascii.eqb_eq in E1. apply accid_char_eqb in E2. congruence.
    + intros [E|E]; [|right; exact E]. left. injection E as -> ->.
      rewrite Ascii.eqb_refl, andb_true_r. cbn [andb]. apply accid_char_eqb. reflexivity.
Qed.

Lemma fill_items is pc : forallb item_ok is = true -> 0 <= pc < 7 ->
  fillKeySignature (S_ "*k[" ++ spell is ++ S_ "]") pc =
  if existsb (fun i => Ascii.eqb (fst i) (diatonic_letter pc) && match snd i with Flat => true | _ => false end) is then -1
  else if existsb (fun i => Ascii.eqb (fst i) (diatonic_letter pc) && match snd i with Sharp => true | _ => false end) is then 1
  else 0.
Proof.
  intros H P. unfold fillKeySignature.
  assert (L : is_letter (diatonic_letter pc) = true /\ Ascii.eqb (diatonic_letter pc) "*" = false /\
              Ascii.eqb (diatonic_letter pc) "k" = false /\ Ascii.eqb (diatonic_letter pc) "[" = false).
  { assert (pc = 0 \/ pc = 1 \/ pc = 2 \/ pc = 3 \/ pc = 4 \/ pc = 5 \/ pc = 6) as C by lia.
    repeat destruct C as [->|C]; try subst pc; repeat split. }
  destruct L as [L [L1 [L2 L3]]]. set (l := diatonic_letter pc) in *.
  assert (C : forall a, contains [l; accid_char a] (S_ "*k[" ++ spell is ++ S_ "]") =
    existsb (fun i => Ascii.eqb (fst i) l && match a, snd i with Flat, Flat | Sharp, Sharp | Natural, Natural => true | _, _ => false end) is).
  { intros a. apply eq_true_iff_eq. cbn [S_ list_ascii_of_string app].
    rewrite !contains_skip by assumption. etransitivity; [apply contains_items; assumption|].
    rewrite existsb_exists. split.
    - intros I. exists (l, a). split; [exact I|]. cbn. rewrite Ascii.eqb_refl. destruct a; reflexivity.
    - intros [[c b] [I E]]. cbn in E. apply andb_true_iff in E as [E1 E2]. apply Ascii.eqb_eq in E1.
      subst c. destruct a, b; try discriminate; exact I. }
  pose proof (C Flat) as CF. pose proof (C Sharp) as CS. cbn [accid_char] in CF, CS. rewrite CF, CS.
  reflexivity.
Qed.

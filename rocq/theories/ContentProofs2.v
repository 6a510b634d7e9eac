(** More proofs about ContentModel: positioned rests, colours, pickups, repeated text. *)
From Coq Require Import Lia QArith.
From Verif Require Import PyStr PyStrProofs RecipModel PitchModel PitchProofs ClefModel BarModel BarProofs ContentModel ContentProofs.
Local Close Scope Q_scope.

(** * Positioned rests *)
(** The clef in force: the last clef interpretation of the track, else a treble clef. *)
Definition clef_texts (k : nat) (ls : list cline) : list str := filter (starts_with (S_ "*clef")) (interps k ls).
Definition last_clef (k : nat) (ls : list cline) : str := hd (S_ "*clefG2") (rev (clef_texts k ls)).

Fixpoint cafter (bl : nat -> Z) (ls : list cline) : nat -> Z :=
  match ls with
  | [] => bl
  | CInterp ts :: ls' => cafter (fold_left clef_interp ts bl) ls'
  | _ :: ls' => cafter bl ls'
  end.

Lemma rests_at ls : forall bl i ts j t, nth_error ls i = Some (CData ts) -> nth_error ts j = Some t ->
  at_pos (rests bl ls) i j = rest_value (cafter bl (firstn i ls)) t.
Proof.
  induction ls as [|l ls IH]; intros st i ts j t Hi Hj; [destruct i; discriminate|].
  destruct i as [|i]; cbn in Hi.
  - injection Hi as ->. unfold at_pos. cbn. apply at_map, Hj.
  - destruct l; unfold at_pos; cbn; eapply IH; eassumption.
Qed.

Definition clast (b : Z) (ss : list str) : Z := fold_left (fun _ s => kernClefToBaseline s) ss b.

Lemma clef_interp_track ts k : forall bl,
  fold_left clef_interp ts bl k =
  clast (bl k) (filter (starts_with (S_ "*clef"))
    (map c_text (filter (fun t => c_kern t && Nat.eqb (c_track t) k) ts))).
Proof.
  induction ts as [|t ts IH]; intros bl; [reflexivity|]. cbn [fold_left filter]. rewrite IH.
  unfold clef_interp. destruct (c_kern t); cbn [andb]; [|reflexivity].
  destruct (Nat.eqb (c_track t) k) eqn:E.
  - apply Nat.eqb_eq in E. cbn [map filter]. destruct (starts_with (S_ "*clef") (c_text t)); [|reflexivity].
    unfold set_track. rewrite E, Nat.eqb_refl. reflexivity.
  - destruct (starts_with (S_ "*clef") (c_text t)); [|reflexivity].
    unfold set_track. rewrite (Nat.eqb_sym k), E. reflexivity.
Qed.

Lemma cafter_track ls k : forall bl, cafter bl ls k = clast (bl k) (clef_texts k ls).
Proof.
  unfold clef_texts. induction ls as [|l ls IH]; intros bl; [reflexivity|].
  rewrite interps_cons, filter_app. destruct l; cbn [cafter filter app]; rewrite IH; try reflexivity.
  rewrite clef_interp_track. unfold clast. rewrite fold_left_app. reflexivity.
Qed.

Lemma clast_last ss : clast (kernClefToBaseline (S_ "*clefG2")) ss = kernClefToBaseline (hd (S_ "*clefG2") (rev ss)).
Proof.
  induction ss as [|s ss IH] using rev_ind; [reflexivity|].
  rewrite rev_unit. unfold clast. rewrite fold_left_app. reflexivity.
Qed.

Theorem rest_position ls i ts j t : nth_error ls i = Some (CData ts) -> nth_error ts j = Some t ->
  at_pos (analyzeRestPositions ls) i j =
  if c_kern t && char_in "r"%char (c_text t)
  then stepShift (c_text t) (c_dur t) (kernClefToBaseline (last_clef (c_track t) (firstn i ls))) else None.
Proof.
  intros Hi Hj. unfold analyzeRestPositions. rewrite (rests_at _ _ _ _ _ _ Hi Hj).
  unfold rest_value. rewrite cafter_track, clast_last. reflexivity.
Qed.

Local Open Scope Z_scope.
Lemma stepShift_line text dur baseline shift : stepShift text dur baseline = Some shift ->
  exists pitch, pitch_run text = Some pitch /\ 0 <= kernToBase7 pitch /\
  let encoded := kernToBase7 pitch - (baseline + 4) in
  shift mod 2 = 0 /\ Z.abs (shift - encoded) <= 1 /\ (encoded mod 2 = 0 -> shift = encoded).
Proof.
  unfold stepShift. destruct (pitch_run text) as [p|]; [|discriminate].
  destruct (Z.ltb_spec (kernToBase7 p) 0) as [|P]; [discriminate|]. intros H. apply Some_inj in H. subst shift.
  exists p. split; [reflexivity|]. split; [exact P|]. cbv zeta. set (b := kernToBase7 p) in *.
  set (x := if (_ =? 0) then b else _).
  assert (X : (x - baseline) mod 2 = 0 /\ Z.abs (x - b) <= 1 /\ ((b - baseline) mod 2 = 0 -> x = b)).
  { unfold x. assert (M : (b - baseline + 100) mod 2 = (b - baseline) mod 2).
    { replace (b - baseline + 100) with (b - baseline + 50 * 2) by lia. apply Z_mod_plus_full. }
    rewrite M. destruct (Z.eqb_spec ((b - baseline) mod 2) 0) as [E|E].
    - split; [exact E|]. split; [lia|auto].
    - assert (O : (b - baseline) mod 2 = 1) by (pose proof (Z.mod_pos_bound (b - baseline) 2); lia).
      assert (D : b - baseline = 2 * ((b - baseline) / 2) + 1) by (pose proof (Z.div_mod (b - baseline) 2); lia).
      set (q := (b - baseline) / 2) in D. destruct (negb _); (split; [|split; [lia|contradiction]]).
      + replace (b - 1 - baseline) with (q * 2) by lia. apply Z_mod_mult.
      + replace (b + 1 - baseline) with ((q + 1) * 2) by lia. apply Z_mod_mult. }
  destruct X as [X1 [X2 X3]].
  assert (S4 : forall y, (y - (baseline + 4)) mod 2 = (y - baseline) mod 2).
  { intros y. replace (y - (baseline + 4)) with (y - baseline + (-2) * 2) by lia. apply Z_mod_plus_full. }
  rewrite !S4. split; [exact X1|]. split; [lia|]. intros E. specialize (X3 E). lia.
Qed.
Local Close Scope Z_scope.

(** The written pitch is a run of pitch letters. *)
Lemma letters_rep c n : is_pitch_letter c = true -> forallb is_pitch_letter (rep c n) = true.
Proof. intros H. unfold rep. induction n as [|n IH]; [reflexivity|]. cbn [repeat forallb]. rewrite H. exact IH. Qed.

Lemma base7ToKern_letters b k : (0 <= b)%Z -> base7ToKern b = Some k -> forallb is_pitch_letter k = true /\ k <> [].
Proof.
  intros Hb H. unfold base7ToKern, base40ToKern in H. cbv zeta in H.
  set (n := (if (4 <? base7ToBase40 b / 40)%Z then _ else _)) in H.
  destruct (12 <? n)%Z; [discriminate|]. apply Some_inj in H. subst k.
  assert (A : base40ToAccidental (base7ToBase40 b) = 0%Z).
  { destruct (base7_is_note b Hb) as (st & _ & ->). unfold base40ToAccidental.
    assert (P : (0 <= b / 7)%Z) by (apply Z.div_pos; lia).
    destruct (Z.ltb_spec (base40_pc st + 0 + 40 * (b / 7)) 0) as [N|_]; [reflexivity|].
    replace (base40_pc st + 0 + 40 * (b / 7))%Z with (base40_pc st + b / 7 * 40)%Z by lia.
    rewrite Z_mod_plus_full. destruct st; reflexivity. }
  rewrite A. cbn [accid_text Z.ltb Z.compare]. rewrite app_nil_r.
  assert (N : exists m, Z.to_nat (1 + n) = S m).
  { exists (Z.to_nat n). unfold n. destruct (Z.ltb_spec 4 (base7ToBase40 b / 40)); [lia|].
    destruct (Z.ltb_spec (base7ToBase40 b / 40) 3); lia. }
  destruct N as [m ->]. split; [|discriminate]. apply letters_rep.
  destruct (base7ToBase40 b / 40 <? 4)%Z; unfold diatonic_letter;
    repeat match goal with |- context [if ?c then _ else _] => destruct c; [reflexivity|] end; reflexivity.
Qed.

Lemma pitch_run_none s : existsb is_pitch_letter s = false -> pitch_run s = None.
Proof.
  induction s as [|c s IH]; intros H; [reflexivity|]. cbn [existsb] in H. apply orb_false_iff in H as [H1 H2].
  cbn [pitch_run]. rewrite H1. apply IH, H2.
Qed.
Lemma pitch_run_app pre s : existsb is_pitch_letter pre = false -> pitch_run (pre ++ s) = pitch_run s.
Proof.
  induction pre as [|c pre IH]; intros H; [reflexivity|]. cbn [existsb] in H. apply orb_false_iff in H as [H1 H2].
  cbn [app pitch_run]. rewrite H1. apply IH, H2.
Qed.
Lemma span_letters k post : forallb is_pitch_letter k = true -> existsb is_pitch_letter post = false ->
  fst (span is_pitch_letter (k ++ post)) = k.
Proof.
  intros H P. induction k as [|c k IH].
  - destruct post as [|c post]; [reflexivity|]. cbn [existsb] in P. apply orb_false_iff in P as [P1 _].
    cbn [app span]. rewrite P1. reflexivity.
  - cbn [forallb] in H. apply andb_true_iff in H as [H1 H2]. specialize (IH H2). cbn [app span]. rewrite H1.
    destruct (span is_pitch_letter (k ++ post)). cbn [fst] in *. congruence.
Qed.

Theorem rest_roundtrip shift baseline pre post dur :
  (shift mod 2 = 0)%Z -> (0 <= baseline + 4 + shift < 119)%Z ->
  existsb is_pitch_letter pre = false -> existsb is_pitch_letter post = false ->
  exists k, restPitch shift baseline = Some k /\
  stepShift (pre ++ k ++ post) dur baseline = if Z.eqb shift 0 then None else Some shift.
Proof.
  intros E B Hp Hq. unfold restPitch. destruct (Z.eqb_spec shift 0) as [->|N].
  - exists []. split; [reflexivity|]. unfold stepShift. cbn [app]. rewrite pitch_run_app, pitch_run_none by assumption. reflexivity.
  - replace (baseline + 1 + 4 + shift - 1)%Z with (baseline + 4 + shift)%Z by lia.
    destruct (base7_roundtrip _ B) as [k [K1 K2]]. exists k. split; [exact K1|].
    destruct (base7ToKern_letters _ _ (proj1 B) K1) as [L NE].
    unfold stepShift. rewrite pitch_run_app by assumption.
    assert (R : pitch_run (k ++ post) = Some k).
    { pose proof (span_letters k post L Hq) as S1. destruct k as [|c k]; [contradiction|].
      cbn [app pitch_run]. cbn [forallb] in L. apply andb_true_iff in L as [L1 _]. rewrite L1.
      cbn [app] in S1. rewrite S1. reflexivity. }
    rewrite R, K2. destruct (Z.ltb_spec (baseline + 4 + shift) 0); [lia|]. cbv zeta.
    replace (baseline + 4 + shift - baseline + 100)%Z with (shift + 52 * 2)%Z by lia.
    rewrite Z_mod_plus_full, E. cbn [Z.eqb]. f_equal. lia.
Qed.

(** * Colours *)
Definition color_value (t : ctok) : option str :=
  if starts_with (S_ "*color:") (c_text t) then Some (skipn 7 (c_text t)) else None.
(** A colour interpretation in subtrack [sub] holds for subtrack [s]. *)
Definition covers (sub s : nat) : bool := Nat.eqb sub s || (Nat.eqb sub 1 && Nat.eqb s 0) || Nat.eqb sub 0.
(** The interpretation tokens before the first data line. *)
Fixpoint opening_tokens (ls : list cline) : list ctok :=
  match ls with
  | [] => []
  | CData _ :: _ => []
  | CInterp ts :: ls' => ts ++ opening_tokens ls'
  | _ :: ls' => opening_tokens ls'
  end.
Definition last_color (ts : list ctok) (s : nat) : str :=
  fold_left (fun col t => match color_value t with
                          | Some v => if (c_sub t <? 30) && covers (c_sub t) s then v else col
                          | None => col end) ts [].

Lemma nth_set_nth {A} (l : list A) : forall n v m d,
  nth m (set_nth n v l) d = if Nat.eqb m n && Nat.ltb n (length l) then v else nth m l d.
Proof.
  induction l as [|x l IH]; intros [|n] v [|m] d; cbn [set_nth nth length Nat.eqb andb Nat.ltb Nat.leb]; try reflexivity.
  - destruct (m =? n); reflexivity.
  - rewrite IH. reflexivity.
Qed.
Lemma length_set_nth {A} (l : list A) : forall n v, length (set_nth n v l) = length l.
Proof. induction l as [|x l IH]; intros [|n] v; cbn; congruence. Qed.

Definition shared (M : nat) (l : list str) : colors := mkColors (repeat 0 (M + 1)) [l].
Lemma nth_repeat0 n m : nth n (repeat 0 m) 0 = 0.
Proof. revert n; induction m as [|m IH]; intros [|n]; cbn; auto. Qed.
Lemma shared_set M l track sub v : color_set (shared M l) track sub v = shared M (set_nth sub v l).
Proof. unfold color_set, shared. cbn [refs heap]. rewrite nth_repeat0. reflexivity. Qed.
Lemma shared_get M l track sub : color_get (shared M l) track sub = nth sub l [].
Proof. unfold color_get, shared. cbn [refs heap]. rewrite nth_repeat0. reflexivity. Qed.

Lemma fold_set M track v zs : forall l,
  fold_left (fun c z => color_set c track z v) zs (shared M l)
  = shared M (fold_left (fun l z => set_nth z v l) zs l).
Proof. induction zs as [|z zs IH]; intros l; [reflexivity|]. cbn [fold_left]. rewrite shared_set. apply IH. Qed.
Lemma fold_set_length v zs : forall l : list str, length (fold_left (fun l z => set_nth z v l) zs l) = length l.
Proof. induction zs as [|z zs IH]; intros l; [reflexivity|]. cbn [fold_left]. rewrite IH. apply length_set_nth. Qed.
Lemma fold_set_nth v zs s : forall l : list str, s < length l ->
  nth s (fold_left (fun l z => set_nth z v l) zs l) [] = if existsb (Nat.eqb s) zs then v else nth s l [].
Proof.
  induction zs as [|z zs IH]; intros l L; [reflexivity|]. cbn [fold_left existsb].
  rewrite IH by (rewrite length_set_nth; exact L). rewrite nth_set_nth.
  destruct (existsb (Nat.eqb s) zs); [rewrite orb_true_r; reflexivity|]. rewrite orb_false_r.
  destruct (Nat.eqb_spec s z) as [->|]; [|reflexivity]. apply Nat.ltb_lt in L. rewrite L. reflexivity.
Qed.

Lemma color_token M l t : length l = 30 -> exists l', length l' = 30 /\
  setSpineColorFromColorInterpToken (shared M l) t = shared M l' /\
  forall s, s < 30 -> nth s l' [] =
    match color_value t with
    | Some v => if (c_sub t <? 30) && covers (c_sub t) s then v else nth s l []
    | None => nth s l [] end.
Proof.
  intros L. unfold setSpineColorFromColorInterpToken, color_value, covers, MAXCOLORSUBTRACK.
  destruct (starts_with _ _); [|exists l; auto].
  destruct (Nat.ltb_spec (c_sub t) 30) as [B|B]; [|exists l; auto]. cbn [andb]. cbv zeta.
  set (v := skipn 7 (c_text t)). rewrite shared_set.
  assert (L1 : length (set_nth (c_sub t) v l) = 30) by (rewrite length_set_nth; exact L).
  destruct (Nat.eqb_spec (c_sub t) 1) as [E1|N1].
  - rewrite shared_set. exists (set_nth 0 v (set_nth (c_sub t) v l)). split; [rewrite length_set_nth; exact L1|]. split; [reflexivity|].
    intros s Hs. rewrite !nth_set_nth, ?length_set_nth, L, E1. cbn [andb Nat.ltb Nat.leb Nat.eqb].
    rewrite !andb_true_r. rewrite (Nat.eqb_sym s 1). destruct s as [|[|s]]; reflexivity.
  - destruct (Nat.eqb_spec (c_sub t) 0) as [E0|N0].
    + rewrite fold_set. exists (fold_left (fun l z => set_nth z v l) (seq 1 (30 - 1)) (set_nth (c_sub t) v l)).
      split; [rewrite fold_set_length; exact L1|]. split; [reflexivity|].
      intros s Hs. rewrite fold_set_nth by (rewrite ?length_set_nth; rewrite L; exact Hs). rewrite nth_set_nth, L, E0. rewrite orb_true_r.
      destruct s as [|s]; [destruct (existsb _ _); reflexivity|].
      assert (E : existsb (Nat.eqb (S s)) (seq 1 (30 - 1)) = true).
      { apply existsb_exists. exists (S s). split; [apply in_seq; lia|apply Nat.eqb_refl]. }
      rewrite E. reflexivity.
    + exists (set_nth (c_sub t) v l). split; [exact L1|]. split; [reflexivity|]. intros s Hs. rewrite nth_set_nth, L.
      apply Nat.ltb_lt in B. rewrite B, (Nat.eqb_sym s), andb_true_r, !orb_false_r. reflexivity.
Qed.

Definition lstep (s : nat) (col : str) (t : ctok) : str :=
  match color_value t with
  | Some v => if (c_sub t <? 30) && covers (c_sub t) s then v else col
  | None => col end.

Lemma color_tokens M ts : forall l, length l = 30 -> exists l', length l' = 30 /\
  fold_left setSpineColorFromColorInterpToken ts (shared M l) = shared M l' /\
  forall s, s < 30 -> nth s l' [] = fold_left (lstep s) ts (nth s l []).
Proof.
  induction ts as [|t ts IH]; intros l L; [exists l; auto|]. cbn [fold_left].
  destruct (color_token M l t L) as [l1 [L1 [-> H1]]]. destruct (IH l1 L1) as [l2 [L2 [-> H2]]].
  exists l2. split; [exact L2|]. split; [reflexivity|]. intros s Hs. rewrite H2, H1 by exact Hs. reflexivity.
Qed.

Lemma starts_contains p s : starts_with p s = true -> contains p s = true.
Proof. intros H. destruct s; cbn [contains]; rewrite H; reflexivity. Qed.

Lemma lstep_none s ts : existsb (fun t => contains (S_ "*color:") (c_text t)) ts = false ->
  forall col, fold_left (lstep s) ts col = col.
Proof.
  induction ts as [|t ts IH]; intros H col; [reflexivity|]. cbn [existsb] in H. apply orb_false_iff in H as [H1 H2].
  cbn [fold_left]. rewrite IH by exact H2. unfold lstep, color_value.
  destruct (starts_with (S_ "*color:") (c_text t)) eqn:E; [|reflexivity].
  apply starts_contains in E. congruence.
Qed.

Lemma color_lines M ls : forall l, length l = 30 -> exists l', length l' = 30 /\
  spine_colors (shared M l) ls = shared M l' /\
  forall s, s < 30 -> nth s l' [] = fold_left (lstep s) (opening_tokens ls) (nth s l []).
Proof.
  induction ls as [|x ls IH]; intros l L; [exists l; auto|].
  destruct x; cbn [spine_colors opening_tokens]; [|exists l; auto|apply IH, L|apply IH, L].
  destruct (existsb _ ts) eqn:E.
  - destruct (color_tokens M ts l L) as [l1 [L1 [-> H1]]]. destruct (IH l1 L1) as [l2 [L2 [-> H2]]].
    exists l2. split; [exact L2|]. split; [reflexivity|]. intros s Hs.
    rewrite H2, H1, fold_left_app by exact Hs. reflexivity.
  - destruct (IH l L) as [l2 [L2 [-> H2]]]. exists l2. split; [exact L2|]. split; [reflexivity|].
    intros s Hs. rewrite H2, fold_left_app, (lstep_none s ts) by assumption. reflexivity.
Qed.

Theorem color_any M ls track s : s < 30 ->
  color_get (initializeSpineColor M ls) track s = last_color (opening_tokens ls) s.
Proof.
  intros Hs. unfold initializeSpineColor, colors0, MAXCOLORSUBTRACK.
  change (mkColors (repeat 0 (M + 1)) [repeat [] 30]) with (shared M (repeat [] 30)).
  destruct (color_lines M ls (repeat [] 30) (repeat_length _ _)) as [l [L [-> H]]].
  rewrite shared_get, H by exact Hs. unfold last_color. rewrite nth_repeat. reflexivity.
Qed.

(** * Pickup measures *)
(** The lines before the first barline, and those after it. *)
Fixpoint before_bar (ls : list cline) : list cline :=
  match ls with [] => [] | CBar _ :: _ => [] | l :: ls' => l :: before_bar ls' end.
Fixpoint after_bar (ls : list cline) : option (list cline) :=
  match ls with [] => None | CBar _ :: ls' => Some ls' | _ :: ls' => after_bar ls' end.
Definition first_timesig (ls : list cline) : option str :=
  find isTimeSignature (flat_map (fun l => match l with CInterp ts => map c_text ts | _ => [] end) ls).

Definition or_else {A} (a b : option A) : option A := match a with Some _ => a | None => b end.

Lemma find_map {A B} (f : A -> B) p l : find p (map f l) = option_map f (find (fun x => p (f x)) l).
Proof. induction l as [|x l IH]; [reflexivity|]. cbn. destruct (p (f x)); [reflexivity|exact IH]. Qed.
Lemma find_app {A} p (a b : list A) : find p (a ++ b) = or_else (find p a) (find p b).
Proof. induction a as [|x a IH]; [reflexivity|]. cbn. destruct (p x); [reflexivity|exact IH]. Qed.
Lemma or_else_assoc {A} (a b c : option A) : or_else (or_else a b) c = or_else a (or_else b c).
Proof. destruct a; reflexivity. Qed.
Lemma first_timesig_cons l ls : first_timesig (l :: ls) =
  or_else (match l with CInterp ts => option_map c_text (find (fun t => isTimeSignature (c_text t)) ts) | _ => None end)
          (first_timesig ls).
Proof.
  unfold first_timesig. cbn [flat_map]. rewrite find_app. destruct l; try reflexivity. rewrite find_map. reflexivity.
Qed.

Lemma scan_second ls : forall i bar tsig, (0 < bar)%Z ->
  pickup_scan i ls bar tsig = (bar, or_else tsig (first_timesig (before_bar ls))).
Proof.
  induction ls as [|l ls IH]; intros i bar tsig B; [destruct tsig; reflexivity|].
  destruct l; cbn [pickup_scan before_bar].
  - rewrite IH by exact B. rewrite first_timesig_cons. destruct tsig; reflexivity.
  - rewrite IH by exact B. reflexivity.
  - apply Z.ltb_lt in B. rewrite B. destruct tsig; reflexivity.
  - rewrite IH by exact B. reflexivity.
Qed.

Lemma scan_first ls : forall i tsig, (0 < i)%Z ->
  pickup_scan i ls (-1) tsig =
  match after_bar ls with
  | None => ((-1)%Z, or_else tsig (first_timesig ls))
  | Some rest => ((i + Z.of_nat (length (before_bar ls)))%Z,
                  or_else tsig (or_else (first_timesig (before_bar ls)) (first_timesig (before_bar rest))))
  end.
Proof.
  induction ls as [|l ls IH]; intros i tsig I; [destruct tsig; reflexivity|].
  destruct l; cbn [pickup_scan before_bar after_bar].
  - rewrite IH by lia. destruct (after_bar ls); rewrite !first_timesig_cons.
    + cbn [length]. f_equal; [lia|]. destruct tsig; [reflexivity|]. cbn [or_else]. rewrite or_else_assoc. reflexivity.
    + f_equal. destruct tsig; reflexivity.
  - rewrite IH by lia. destruct (after_bar ls); rewrite !first_timesig_cons.
    + cbn [length]. f_equal; lia.
    + reflexivity.
  - change (0 <? -1)%Z with false. cbn iota. rewrite scan_second by exact I. cbn [length]. f_equal. lia.
  - rewrite IH by lia. destruct (after_bar ls); rewrite !first_timesig_cons.
    + cbn [length]. f_equal; lia.
    + reflexivity.
Qed.

Theorem pickup_exact l ls rest durs : (forall ts, l <> CBar ts) ->
  after_bar (l :: ls) = Some rest ->
  let b := Z.of_nat (length (before_bar (l :: ls))) in
  (0 < b)%Z /\
  hasPickup (l :: ls) durs =
  match first_timesig (before_bar (l :: ls) ++ before_bar rest) with
  | None => Some 0%Z
  | Some s => match timeSigToDuration s with
              | None => None
              | Some d => Some (if Qeq_bool (durs b) d then 0%Z else b)
              end
  end.
Proof.
  intros NB AB b. assert (Eb : b = (1 + Z.of_nat (length (before_bar ls)))%Z).
  { unfold b. destruct l; try (cbn [before_bar length]; lia). exfalso. eapply NB. reflexivity. }
  assert (AB' : after_bar ls = Some rest) by (destruct l; try exact AB; exfalso; eapply NB; reflexivity).
  split; [lia|]. unfold hasPickup.
  assert (Sc : pickup_scan 0 (l :: ls) (-1) None =
    (b, first_timesig (before_bar (l :: ls) ++ before_bar rest))).
  { assert (FA : forall a c, first_timesig (a ++ c) = or_else (first_timesig a) (first_timesig c)).
    { intros a c. unfold first_timesig. rewrite flat_map_app. apply find_app. }
    rewrite FA. destruct l; try (exfalso; eapply NB; reflexivity); cbn [pickup_scan before_bar];
      rewrite scan_first, AB' by lia; rewrite first_timesig_cons, ?or_else_assoc; f_equal; lia. }
  rewrite Sc. destruct (first_timesig _) as [s|]; [|reflexivity].
  destruct (Z.ltb_spec b 0); [lia|]. destruct (timeSigToDuration s); [|reflexivity].
  destruct (Qeq_bool _ _); reflexivity.
Qed.

Theorem pickup_no_bar l ls durs : (forall ts, l <> CBar ts) -> after_bar (l :: ls) = None ->
  hasPickup (l :: ls) durs = Some 0%Z.
Proof.
  intros NB AB. assert (AB' : after_bar ls = None) by (destruct l; try exact AB; exfalso; eapply NB; reflexivity).
  unfold hasPickup. destruct l; try (exfalso; eapply NB; reflexivity); cbn [pickup_scan];
    rewrite scan_first, AB' by lia; destruct (or_else _ _); reflexivity.
Qed.

(** * Repeated text *)
Section Ij.
Context (ts : list ttok).
Definition opens (i : nat) : Prop := exists s, nth_error ts i = Some (TInterp s) /\ ij_open s = true.
Definition closes (i : nat) : Prop := exists s, nth_error ts i = Some (TInterp s) /\ ij_close s = true.
Definition syllable (i : nat) : Prop := exists s, nth_error ts i = Some (TData s) /\ is_null s = false.
(** A region is open at [n]; and it has had no syllable yet. *)
Definition inside (n : nat) : Prop := exists m, m < n /\ opens m /\ forall x, m < x < n -> ~ closes x.
Definition fresh (n : nat) : Prop :=
  exists m, m < n /\ opens m /\ forall x, m < x < n -> ~ closes x /\ ~ syllable x.
Definition ends (i : nat) : Prop := exists j, i < j /\ closes j /\ forall x, i < x < j -> ~ syllable x.

Definition ij_at (n : nat) : ijst := ij_run (mkIJ false false None []) 0 (firstn n ts).

Lemma ij_run_snoc pre t : forall st i, ij_run st i (pre ++ [t]) = ij_step (ij_run st i pre) (i + length pre) t.
Proof.
  induction pre as [|x pre IH]; intros st i; [cbn; rewrite Nat.add_0_r; reflexivity|].
  cbn [app ij_run length]. rewrite IH. f_equal. lia.
Qed.

Lemma firstn_snoc {A} (l : list A) n t : nth_error l n = Some t -> firstn (S n) l = firstn n l ++ [t].
Proof.
  revert n; induction l as [|x l IH]; intros [|n] H; try discriminate; cbn in *; [congruence|].
  f_equal. apply IH, H.
Qed.

Lemma ij_at_S n t : nth_error ts n = Some t -> ij_at (S n) = ij_step (ij_at n) n t.
Proof.
  intros H. unfold ij_at. rewrite (firstn_snoc _ _ _ H), ij_run_snoc. f_equal. cbn.
  apply firstn_length_le. assert (nth_error ts n <> None) by congruence. apply nth_error_Some in H0. lia.
Qed.

Lemma open_not_null s : ij_open s = true -> is_null s = false /\ ij_close s = false.
Proof.
  unfold ij_open. intros H. apply orb_true_iff in H as [H|H]; [apply orb_true_iff in H as [H|H]|];
    apply str_eqb_eq in H; subst; split; reflexivity.
Qed.
Lemma close_not_null s : ij_close s = true -> is_null s = false /\ ij_open s = false.
Proof.
  unfold ij_close. intros H. apply orb_true_iff in H as [H|H]; [apply orb_true_iff in H as [H|H]|];
    apply str_eqb_eq in H; subst; split; reflexivity.
Qed.

(** What a step does, by the kind of the token. *)
Inductive step_case (st : ijst) (n : nat) (st' : ijst) : Prop :=
  | StOpen : opens n -> ~ closes n -> ~ syllable n ->
      st' = mkIJ true true (ij_last st) (ij_marks st) -> step_case st n st'
  | StClose : ~ opens n -> closes n -> ~ syllable n ->
      st' = mkIJ false false None (ij_marks st ++ match ij_last st with Some l => [(l, IjEnd)] | None => [] end) ->
      step_case st n st'
  | StSyl : ~ opens n -> ~ closes n -> syllable n ->
      st' = (if ij_on st then mkIJ true false (Some n)
               (ij_marks st ++ (n, Ij) :: (if ij_start st then [(n, IjBegin)] else [])) else st) -> step_case st n st'
  | StNone : ~ opens n -> ~ closes n -> ~ syllable n -> st' = st -> step_case st n st'.

Lemma ij_cases st n t : nth_error ts n = Some t -> step_case st n (ij_step st n t).
Proof.
  intros H. destruct (t_is_null t) eqn:N.
  - apply StNone; try (unfold ij_step; rewrite N; reflexivity).
    + intros [s [E O]]. rewrite H in E. injection E as ->. cbn in N. apply open_not_null in O. destruct O. congruence.
    + intros [s [E O]]. rewrite H in E. injection E as ->. cbn in N. apply close_not_null in O. destruct O. congruence.
    + intros [s [E O]]. rewrite H in E. injection E as ->. cbn in N. congruence.
  - unfold ij_step. rewrite N. destruct t as [s|s|s].
    + destruct (ij_open s) eqn:O; [|destruct (ij_close s) eqn:C].
      * pose proof (open_not_null s O) as [_ C]. apply StOpen; [exists s; auto| | |reflexivity];
          intros [x [E X]]; rewrite H in E; injection E; intros; subst; congruence.
      * apply StClose; [|exists s; auto| |].
        -- intros [x [E X]]; rewrite H in E; injection E; intros; subst; congruence.
        -- intros [x [E X]]; rewrite H in E; discriminate.
        -- destruct (ij_last st); [reflexivity|rewrite app_nil_r; reflexivity].
      * apply StNone; [| | |reflexivity]; intros [x [E X]]; rewrite H in E; try discriminate;
          injection E; intros; subst; congruence.
    + apply StSyl; [| |exists s; auto|reflexivity]; intros [x [E X]]; rewrite H in E; discriminate.
    + apply StNone; [| | |reflexivity]; intros [x [E X]]; rewrite H in E; discriminate.
Qed.

Definition ij_inv (n : nat) (st : ijst) : Prop :=
  (ij_on st = true <-> inside n) /\
  (ij_start st = true <-> fresh n) /\
  (forall l, ij_last st = Some l <->
     l < n /\ syllable l /\ inside l /\ forall x, l < x < n -> ~ closes x /\ ~ syllable x) /\
  (forall i, In (i, Ij) (ij_marks st) <-> i < n /\ syllable i /\ inside i) /\
  (forall i, In (i, IjBegin) (ij_marks st) <-> i < n /\ syllable i /\ fresh i) /\
  (forall i, In (i, IjEnd) (ij_marks st) <-> i < n /\ syllable i /\ inside i /\
     exists j, i < j < n /\ closes j /\ forall x, i < x < j -> ~ syllable x /\ ~ closes x).

Lemma split_lt (P : nat -> Prop) m n : (forall x, m < x < S n -> P x) <-> (forall x, m < x < n -> P x) /\ (m < n -> P n).
Proof.
  split.
  - intros H. split; [intros x X|intros X]; apply H; lia.
  - intros [H1 H2] x X. destruct (Nat.eq_dec x n) as [->|]; [apply H2; lia|apply H1; lia].
Qed.

Lemma inside_S n : inside (S n) <-> (opens n \/ (inside n /\ ~ closes n)).
Proof.
  unfold inside. split.
  - intros [m [L [O H]]]. destruct (Nat.eq_dec m n) as [->|]; [left; exact O|]. right. split.
    + exists m. split; [lia|]. split; [exact O|]. intros x X. apply H. lia.
    + apply H. lia.
  - intros [O|[[m [L [O H]]] C]].
    + exists n. split; [lia|]. split; [exact O|]. intros x X. lia.
    + exists m. split; [lia|]. split; [exact O|]. apply split_lt. split; [exact H|auto].
Qed.
Lemma fresh_S n : fresh (S n) <-> (opens n \/ (fresh n /\ ~ closes n /\ ~ syllable n)).
Proof.
  unfold fresh. split.
  - intros [m [L [O H]]]. destruct (Nat.eq_dec m n) as [->|]; [left; exact O|]. right. split.
    + exists m. split; [lia|]. split; [exact O|]. intros x X. apply H. lia.
    + apply H. lia.
  - intros [O|[[m [L [O H]]] C]].
    + exists n. split; [lia|]. split; [exact O|]. intros x X. lia.
    + exists m. split; [lia|]. split; [exact O|]. apply split_lt. split; [exact H|auto].
Qed.
Lemma fresh_inside n : fresh n -> inside n.
Proof. intros [m [L [O H]]]. exists m. split; [exact L|]. split; [exact O|]. intros x X. apply H, X. Qed.

Definition lastp (n l : nat) : Prop :=
  l < n /\ syllable l /\ inside l /\ forall x, l < x < n -> ~ closes x /\ ~ syllable x.
Definition endp (n i : nat) : Prop := i < n /\ syllable i /\ inside i /\
  exists j, i < j < n /\ closes j /\ forall x, i < x < j -> ~ syllable x /\ ~ closes x.

Lemma lastp_S n l : lastp (S n) l <-> (lastp n l /\ ~ closes n /\ ~ syllable n) \/ (l = n /\ syllable n /\ inside n).
Proof.
  unfold lastp. rewrite split_lt. split.
  - intros [L [Y [I [H1 H2]]]]. destruct (Nat.eq_dec l n) as [->|]; [right; auto|].
    left. split; [split; [lia|]; split; [exact Y|]; split; [exact I|exact H1]|apply H2; lia].
  - intros [[[L [Y [I H]]] C]|[-> [Y I]]].
    + split; [lia|]. split; [exact Y|]. split; [exact I|]. split; [exact H|intros _; exact C].
    + split; [lia|]. split; [exact Y|]. split; [exact I|]. split; intros; lia.
Qed.
Lemma endp_S n i : endp (S n) i <-> endp n i \/ (lastp n i /\ closes n).
Proof.
  unfold endp, lastp. split.
  - intros [L [Y [I [j [J [C H]]]]]]. destruct (Nat.eq_dec j n) as [->|].
    + right. split; [|exact C]. split; [lia|]. split; [exact Y|]. split; [exact I|].
      intros x X. destruct (H x X). split; assumption.
    + left. split; [lia|]. split; [exact Y|]. split; [exact I|]. exists j. split; [lia|]. split; assumption.
  - intros [[L [Y [I [j [J [C H]]]]]]|[[L [Y [I H]]] C]].
    + split; [lia|]. split; [exact Y|]. split; [exact I|]. exists j. split; [lia|]. split; assumption.
    + split; [lia|]. split; [exact Y|]. split; [exact I|]. exists n. split; [lia|]. split; [exact C|].
      intros x X. destruct (H x X). split; assumption.
Qed.
Lemma ijp_S (P : nat -> Prop) n i : (i < S n /\ syllable i /\ P i) <->
  (i < n /\ syllable i /\ P i) \/ (i = n /\ syllable n /\ P n).
Proof.
  split.
  - intros [L H]. destruct (Nat.eq_dec i n) as [->|]; [right; auto|left; split; [lia|exact H]].
  - intros [[L H]|[-> H]]; split; auto; lia.
Qed.

Lemma lastp_no_syl n l : lastp n l -> inside n.
Proof.
  intros [L [Y [[m [M [O H]]] X]]]. exists m. split; [lia|]. split; [exact O|].
  intros x Hx. destruct (Nat.lt_trichotomy x l) as [A|[->|A]].
  - apply H; lia.
  - intros [s [E _]]. destruct Y as [s' [E' _]]. congruence.
  - apply X; lia.
Qed.

Lemma ij_inv_0 : ij_inv 0 (mkIJ false false None []).
Proof.
  unfold ij_inv, inside, fresh. cbn. repeat split; intros; try discriminate; try contradiction;
    try (match goal with h : exists _, _ |- _ => destruct h as [? [? _]]; lia end); destruct H; lia.
Qed.

Lemma ij_inv_S n t st : nth_error ts n = Some t -> ij_inv n st -> ij_inv (S n) (ij_step st n t).
Proof.
  intros Ht [H1 [H2 [H3 [H4 [H5 H6]]]]].
  change (forall l, ij_last st = Some l <-> lastp n l) in H3.
  change (forall i, In (i, IjEnd) (ij_marks st) <-> endp n i) in H6.
  unfold ij_inv.
  change (ij_on (ij_step st n t) = true <-> inside (S n)) with (ij_on (ij_step st n t) = true <-> inside (S n)).
  assert (G : forall st', step_case st n st' ->
    (ij_on st' = true <-> inside (S n)) /\ (ij_start st' = true <-> fresh (S n)) /\
    (forall l, ij_last st' = Some l <-> lastp (S n) l) /\
    (forall i, In (i, Ij) (ij_marks st') <-> i < S n /\ syllable i /\ inside i) /\
    (forall i, In (i, IjBegin) (ij_marks st') <-> i < S n /\ syllable i /\ fresh i) /\
    (forall i, In (i, IjEnd) (ij_marks st') <-> endp (S n) i)).
  { intros st' C. setoid_rewrite lastp_S. setoid_rewrite endp_S. setoid_rewrite ijp_S.
    rewrite inside_S, fresh_S. destruct C as [O C Y ->|O C Y ->|O C Y ->|O C Y ->]; cbn [ij_on ij_start ij_last ij_marks].
    - repeat split; intros; try tauto; try (apply H3 in H; tauto); try (apply H4 in H; tauto); try (apply H5 in H; tauto);
        try (apply H6 in H; tauto); try (apply H3; tauto); try (apply H4; tauto); try (apply H5; tauto); try (apply H6; tauto).
    - assert (L : forall p : nat * mark, In p (ij_marks st ++ match ij_last st with Some l => [(l, IjEnd)] | None => [] end) <->
        In p (ij_marks st) \/ exists l, lastp n l /\ p = (l, IjEnd)).
      { intros p. rewrite in_app_iff. destruct (ij_last st) as [l|] eqn:El.
        - split.
          + intros [I|[I|[]]]; [left; exact I|right; exists l; split; [apply H3; reflexivity|symmetry; exact I]].
          + intros [I|[l' [Hl ->]]]; [left; exact I|]. right. left. apply H3 in Hl. congruence.
        - split; [intros [I|[]]; left; exact I|]. intros [I|[l' [Hl ->]]]; [left; exact I|]. apply H3 in Hl. congruence. }
      setoid_rewrite L. setoid_rewrite H4. setoid_rewrite H5. setoid_rewrite H6.
      split; [split; [discriminate|tauto]|]. split; [split; [discriminate|tauto]|].
      split; [intros l; split; [discriminate|tauto]|].
      split; [intros i; split; [intros [?|[l [_ E]]]; [tauto|discriminate]|tauto]|].
      split; [intros i; split; [intros [?|[l [_ E]]]; [tauto|discriminate]|tauto]|].
      intros i; split; [intros [?|[l [Hl E]]]; [tauto|injection E as ->; tauto]|].
      intros [?|[Hl _]]; [tauto|right; exists i; tauto].
    - assert (L : forall l, lastp n l -> inside n) by (intros l; apply lastp_no_syl).
      destruct (ij_on st) eqn:On; cbn [ij_on ij_start ij_last ij_marks].
      + assert (In' : inside n) by tauto.
        setoid_rewrite in_app_iff. cbn [In].
        split; [tauto|]. split; [split; [discriminate|tauto]|].
        split. { intros l. split; [intros E; injection E as <-; tauto|intros [?|[-> _]]; [tauto|reflexivity]]. }
        split. { intros i. rewrite H4. split.
          - intros [?|[E|E]]; [tauto|injection E as <-; tauto|]. destruct (ij_start st); cbn in E; [destruct E as [E|[]]; discriminate|contradiction].
          - intros [?|[-> _]]; tauto. }
        split. { intros i. rewrite H5. destruct (ij_start st) eqn:Es; cbn [In].
          - split; [intros [?|[E|[E|[]]]]; [tauto|discriminate|injection E as <-; tauto]|].
            intros [?|[-> _]]; tauto.
          - split; [intros [?|[E|[]]]; [tauto|discriminate]|]. intros [?|[-> [_ F]]]; [tauto|]. apply H2 in F. discriminate. }
        intros i. rewrite H6. destruct (ij_start st); cbn [In].
        * split; [intros [?|[E|[E|[]]]]; [tauto|discriminate|discriminate]|]. tauto.
        * split; [intros [?|[E|[]]]; [tauto|discriminate]|]. tauto.
      + assert (Nin : ~ inside n) by (intros I; apply H1 in I; discriminate).
        assert (Nf : ~ fresh n) by (intros F; apply Nin, fresh_inside, F).
        assert (Es : ij_start st = true <-> False) by tauto.
        split; [rewrite On; split; [discriminate|tauto]|]. split; [tauto|].
        split; [intros l; rewrite H3; split; [intros P; exfalso; exact (Nin (L l P))|tauto]|].
        split; [intros i; rewrite H4; tauto|]. split; [intros i; rewrite H5; tauto|].
        intros i. rewrite H6. tauto.
    - setoid_rewrite H3. setoid_rewrite H4. setoid_rewrite H5. setoid_rewrite H6.
      split; [tauto|]. split; [tauto|]. split; [intros; tauto|]. split; [intros; tauto|]. split; [intros; tauto|]. intros; tauto. }
  apply G, ij_cases, Ht.
Qed.

Theorem ij_regions : forall i,
  (In (i, Ij) (analyzeTextRepetition ts) <-> syllable i /\ inside i) /\
  (In (i, IjBegin) (analyzeTextRepetition ts) <-> syllable i /\ fresh i) /\
  (In (i, IjEnd) (analyzeTextRepetition ts) <-> syllable i /\ inside i /\ ends i).
Proof.
  assert (A : forall n, n <= length ts -> ij_inv n (ij_at n)).
  { induction n as [|n IH]; intros L; [exact ij_inv_0|].
    destruct (nth_error ts n) as [t|] eqn:E; [|apply nth_error_None in E; lia].
    rewrite (ij_at_S _ _ E). apply ij_inv_S; [exact E|apply IH; lia]. }
  specialize (A (length ts) (le_n _)). unfold ij_at in A. rewrite firstn_all in A.
  change (ij_run (mkIJ false false None []) 0 ts) with (ij_run (mkIJ false false None []) 0 ts) in A.
  destruct A as [_ [_ [_ [A [B C]]]]]. intros i. unfold analyzeTextRepetition. rewrite A, B, C.
  assert (L : syllable i -> i < length ts).
  { intros [s [E _]]. apply nth_error_Some. congruence. }
  split; [tauto|]. split; [tauto|]. split.
  - intros [_ [Y [I [j [J [Cj H]]]]]]. split; [exact Y|]. split; [exact I|]. exists j. split; [lia|]. split; [exact Cj|].
    intros x X. apply H, X.
  - intros [Y [I [j [J [Cj H]]]]]. split; [apply L, Y|]. split; [exact Y|]. split; [exact I|].
    (* the first closing mark after i *)
    assert (Dc : forall x, closes x \/ ~ closes x).
    { intros x. unfold closes. destruct (nth_error ts x) as [[s|s|s]|]; try (right; intros [y [E _]]; discriminate).
      destruct (ij_close s) eqn:K; [left; exists s; auto|right; intros [y [E F]]; congruence]. }
    assert (Fst : forall k, i < k -> (forall x, i < x < k -> ~ syllable x) -> closes k ->
      exists j', i < j' <= k /\ closes j' /\ forall x, i < x < j' -> ~ closes x).
    { intros k. induction k as [k IHk] using lt_wf_ind. intros Lk Sk Ck.
      assert (D : (exists x, i < x < k /\ closes x) \/ (forall x, i < x < k -> ~ closes x)).
      { clear - Dc. induction k as [|k IH]; [right; lia|]. destruct IH as [[x [X C]]|N]; [left; exists x; split; [lia|exact C]|].
        destruct (Dc k) as [C|C].
        - destruct (le_lt_dec k i); [right; intros x X; lia|left; exists k; split; [lia|exact C]].
        - right. apply split_lt. split; [exact N|auto]. }
      destruct D as [[x [X Cx]]|N].
      - destruct (IHk x ltac:(lia) ltac:(lia)) as [j' [J' P]]; [intros y Y'; apply Sk; lia|exact Cx|].
        exists j'. split; [lia|exact P].
      - exists k. split; [lia|]. split; assumption. }
    destruct (Fst j J H Cj) as [j' [J' [C' N']]]. exists j'. split.
    { assert (j' < length ts) by (destruct C' as [s [E _]]; apply nth_error_Some; congruence). lia. }
    split; [exact C'|]. intros x X. split; [apply H; lia|apply N', X].
Qed.
End Ij.

(** C144: arpeggios in Humdrum. *)
From Coq Require Import Arith Lia.
From Verif Require Import PyStr PyStrProofs BarModel BarProofs AccidProofs OrnProofs ArpModel.

(** ** What is read from a line, staff by staff *)

(** The tokens that count: of **kern spines, without hidden rests. *)
Definition seen (t : tok) : bool := t_kern t && negb (t_rest t && contains (S_ "yy") (t_text t)).
Fixpoint run (p : tok -> bool) (l : list tok) : list tok :=
  match l with t :: r => if p t then t :: run p r else [] | [] => [] end.
Fixpoint from (p : tok -> bool) (l : list tok) : list tok :=
  match l with t :: r => if p t then l else from p r | [] => [] end.
Definition as_arp (l : list tok) : list arp :=
  match l with [] => [] | [t] => [Mark (t_id t)] | _ => [Spanner (map t_id l)] end.
(** One arpeggio at most is read for a staff: it begins at the first marked token.
    A single mark: the tokens from there on that are marked.  A double mark: only if
    nothing is marked in the staves to the left; the tokens with double marks, into
    the staves to the right. *)
Definition of_staff (lefts staff rights : list tok) : list arp :=
  match from colon (filter seen staff) with
  | [] => []
  | t :: r =>
      if negb (t_note t) then []
      else if double t then if existsb colon (filter seen lefts) then [] else as_arp (run double (t :: r ++ filter seen rights))
      else as_arp (run colon (t :: r))
  end.
Fixpoint by_staves (lefts : list tok) (staves : list (list tok)) : list arp :=
  match staves with [] => [] | s :: r => of_staff lefts s (concat r) ++ by_staves (lefts ++ s) r end.

(** Lines: the tokens of a track are together, notes are seen. *)
Definition line_ok (staves : list (list tok)) (tracks : list nat) : Prop :=
  NoDup tracks /\ Forall2 (fun s n => Forall (fun t => t_track t = n /\ (t_note t = true -> seen t = true)) s) staves tracks.

Lemma seen_eq t : seen t = t_kern t && negb (isHidden t).
Proof. unfold seen, isHidden. destruct (t_kern t), (t_rest t); reflexivity. Qed.
Lemma double_colon t : double t = true -> colon t = true.
Proof.
  unfold double, colon. induction (t_text t) as [|c s IH]; [discriminate|]. rewrite !contains_cons. intro H. apply orb_true_iff in H as [H|H].
  - apply orb_true_iff. left. cbn [starts_with list_ascii_of_string] in H |- *. apply andb_prop in H as [H _]. change (starts_with (S_ ":") (c :: s)) with (Ascii.eqb ":" c && true).
    rewrite andb_true_r. exact H.
  - apply orb_true_iff. right. exact (IH H).
Qed.
Lemma leftmostSystem_eq l : leftmostSystem l = negb (existsb colon (filter seen l)).
Proof.
  induction l as [|t l IH]; [reflexivity|]. cbn [leftmostSystem filter]. rewrite seen_eq. destruct (t_kern t); cbn [negb andb]; [|exact IH].
  destruct (isHidden t); cbn [negb]; [exact IH|]. cbn [existsb]. destruct (colon t); [reflexivity|exact IH].
Qed.
Lemma systemTokens_eq l : systemTokens l = run double (filter seen l).
Proof.
  induction l as [|t l IH]; [reflexivity|]. cbn [systemTokens filter]. rewrite seen_eq. destruct (t_kern t); cbn [negb andb]; [|exact IH].
  destruct (isHidden t); cbn [negb]; [exact IH|]. cbn [run]. destruct (double t); [rewrite IH|]; reflexivity.
Qed.
Lemma leftmostStaff_eq n l l' : Forall (fun t => t_track t = n) l -> (match l' with [] => True | t :: _ => t_track t <> n end) ->
  leftmostStaff n (l ++ l') = negb (existsb colon (filter seen l)).
Proof.
  intros H Hl. induction l as [|t l IH].
  - destruct l' as [|t l']; [reflexivity|]. cbn [app leftmostStaff]. rewrite (proj2 (Nat.eqb_neq _ _) Hl). reflexivity.
  - apply Forall_cons_iff in H as [Ht H]. specialize (IH H). cbn [app leftmostStaff filter]. rewrite Ht, Nat.eqb_refl, seen_eq. cbn [negb].
    destruct (t_kern t); cbn [negb andb]; [|exact IH]. destruct (isHidden t); cbn [negb]; [exact IH|]. cbn [existsb]. destruct (colon t); [reflexivity|exact IH].
Qed.
Lemma staffTokens_eq n l l' : Forall (fun t => t_track t = n) l -> (match l' with [] => True | t :: _ => t_track t <> n end) ->
  staffTokens n (l ++ l') = run colon (filter seen l).
Proof.
  intros H Hl. induction l as [|t l IH].
  - destruct l' as [|t l']; [reflexivity|]. cbn [app staffTokens]. rewrite (proj2 (Nat.eqb_neq _ _) Hl). reflexivity.
  - apply Forall_cons_iff in H as [Ht H]. specialize (IH H). cbn [app staffTokens filter]. rewrite Ht, Nat.eqb_refl, seen_eq. cbn [negb].
    destruct (t_kern t); cbn [negb andb]; [|exact IH]. destruct (isHidden t); cbn [negb]; [exact IH|]. cbn [run]. destruct (colon t); [rewrite IH|]; reflexivity.
Qed.
Lemma from_none p l : existsb p l = false -> from p l = [].
Proof. induction l as [|t l IH]; [reflexivity|]. cbn. destruct (p t); [discriminate|exact IH]. Qed.
Lemma existsb_rev {A} (p : A -> bool) l : existsb p (rev l) = existsb p l.
Proof. induction l as [|t l IH]; [reflexivity|]. cbn [rev]. rewrite existsb_app, IH. cbn [existsb]. rewrite orb_false_r. apply orb_comm. Qed.
Lemma filter_rev {A} (p : A -> bool) l : filter p (rev l) = rev (filter p l).
Proof. induction l as [|t l IH]; [reflexivity|]. cbn [rev]. rewrite filter_app, IH. cbn [filter]. destruct (p t); [reflexivity|apply app_nil_r]. Qed.

(** Within one staff: [done] are its tokens already read, nearest first. *)
Lemma read_staff n lefts rights : (match rights with [] => True | t :: _ => t_track t <> n end) -> (match lefts with [] => True | t :: _ => t_track t <> n end) ->
  forall s done, Forall (fun t => t_track t = n) done -> Forall (fun t => t_track t = n /\ (t_note t = true -> seen t = true)) s ->
  read_from (done ++ lefts) (s ++ rights)
  = (if existsb colon (filter seen done) then [] else of_staff (rev lefts) s rights) ++ read_from (rev s ++ done ++ lefts) rights.
Proof.
  intros HR HL. assert (FR : forall l, match from colon l with [] => True | t :: _ => colon t = true end).
  { intro l. induction l as [|t l IH]; [exact I|]. cbn [from]. destruct (colon t) eqn:E; [exact E|exact IH]. }
  induction s as [|t s IH]; intros done HD HS.
  - cbn [app rev]. unfold of_staff. cbn [filter from]. destruct (existsb _ _); reflexivity.
  - apply Forall_cons_iff in HS as [[Ht Hn] HS]. cbn [app read_from].
    change (t :: done ++ lefts) with ((t :: done) ++ lefts). rewrite (IH (t :: done)) by (auto; constructor; auto).
    replace (rev (t :: s) ++ done ++ lefts) with (rev s ++ (t :: done) ++ lefts) by (cbn [rev]; rewrite <- app_assoc; reflexivity).
    rewrite app_assoc. f_equal.
    assert (HS' : Forall (fun t => t_track t = n) s) by (revert HS; apply Forall_impl; tauto).
    destruct (t_note t) eqn:Nt.
    + specialize (Hn eq_refl). cbn [filter]. rewrite Hn. cbn [existsb]. unfold addArpeggio, of_staff at 2. cbn [filter]. rewrite Hn. cbn [from].
      destruct (double t) eqn:Dt.
      * rewrite (double_colon t Dt), Nt. cbn [orb negb app]. rewrite app_nil_r, leftmostSystem_eq, filter_app, existsb_app, Dt, systemTokens_eq, filter_app, filter_rev, existsb_rev.
        destruct (existsb colon (filter seen done)); cbn [orb negb]; [reflexivity|]. destruct (existsb colon (filter seen lefts)); cbn [negb]; [reflexivity|].
        cbn [run]. rewrite Dt. reflexivity.
      * destruct (colon t) eqn:Ct; cbn [orb].
        -- rewrite Nt. cbn [negb app]. rewrite app_nil_r, Ht, leftmostStaff_eq, staffTokens_eq, Dt by assumption.
           destruct (existsb colon (filter seen done)); cbn [negb]; [reflexivity|]. cbn [run]. rewrite Ct. reflexivity.
        -- reflexivity.
    + cbn [app filter]. unfold of_staff at 2. cbn [filter]. destruct (seen t) eqn:St; [|reflexivity]. cbn [existsb from].
      destruct (colon t) eqn:Ct; cbn [orb]; [|reflexivity]. rewrite Nt. cbn [negb]. destruct (existsb _ _); reflexivity.
Qed.

Lemma read_staves : forall staves tracks lefts, line_ok staves tracks -> (forall t, In t lefts -> ~ In (t_track t) tracks) ->
  read_from (rev lefts) (concat staves) = by_staves lefts staves.
Proof.
  induction staves as [|s staves IH]; intros tracks lefts [ND F2] HL; inversion F2 as [|x n l tracks' Hs Ht]; subst; [reflexivity|].
  apply NoDup_cons_iff in ND as [Nn ND]. cbn [concat by_staves].
  assert (OK : line_ok staves tracks') by (split; assumption).
  assert (HR : forall t, In t (concat staves) -> In (t_track t) tracks').
  { intros t It. apply in_concat in It as (s' & Is & It). clear - Ht Is It. induction Ht as [|a b la lb Hab H IH]; [destruct Is|].
    destruct Is as [->|Is]; [left; destruct (proj1 (Forall_forall _ _) Hab t It) as [E _]; auto|right; auto]. }
  pose proof (read_staff n (rev lefts) (concat staves)) as R.
  specialize (R ltac:(destruct (concat staves) as [|t r]; [exact I|intro E; apply Nn; rewrite <- E; apply HR; now left])
                ltac:(destruct (rev lefts) as [|t r] eqn:Er; [exact I|intro E; apply (HL t); [apply in_rev; rewrite Er; now left|left; auto]]) s [] (Forall_nil _) Hs).
  cbn [app filter existsb] in R. rewrite R, rev_involutive. f_equal.
  replace (rev s ++ rev lefts) with (rev (lefts ++ s)) by apply rev_app_distr. apply (IH tracks' (lefts ++ s) OK).
  intros t It. apply in_app_or in It as [It|It]; [intro J; apply (HL t It); right; exact J|].
  destruct (proj1 (Forall_forall _ _) Hs t It) as [E _]. rewrite E. exact Nn.
Qed.

(** Exactly these arpeggios are read from a line. *)
Theorem C144_read : forall staves tracks, line_ok staves tracks -> read_line (concat staves) = by_staves [] staves.
Proof. intros staves tracks H. apply (read_staves staves tracks [] H). intros t []. Qed.
Print Assumptions C144_read.

(** ** Writing and reading *)

(** The text of a token of a note with its expressions. *)
Definition clean (s : str) : Prop := char_in ":" s = false.
Definition arpeggios (es : list expr) : list expr := filter (fun e => match e with EOther _ => false | _ => true end) es.
Definition written (t : tok) (es : list expr) : Prop :=
  (exists pre post, t_text t = pre ++ exprs_text es ++ post /\ clean pre /\ clean post) /\ Forall (fun e => match e with EOther s => clean s | _ => True end) es.
(** No arpeggio; one within the staff; one over several staves. *)
Definition plain (t : tok) : Prop := exists es, written t es /\ arpeggios es = [].
Definition one_staff (t : tok) : Prop := exists es, written t es /\ (arpeggios es = [EMark] \/ exists m ms, arpeggios es = [ESpanner (m :: ms)] /\ Forall (eq m) ms).
Definition several_staves (t : tok) : Prop := exists es m m' ms, written t es /\ arpeggios es = [ESpanner ms] /\ In m ms /\ In m' ms /\ m <> m'.

Lemma same_measure m ms : Forall (eq m) ms -> inSameMeasure (m :: ms) = true.
Proof. intro H. cbn. apply forallb_forall. intros x I. apply Nat.eqb_eq. exact (proj1 (Forall_forall _ _) H x I). Qed.
Lemma other_measure m m' ms : In m ms -> In m' ms -> m <> m' -> inSameMeasure ms = false.
Proof.
  intros I J N. destruct ms as [|x ms]; [destruct I|]. cbn. destruct (forallb (Nat.eqb x) ms) eqn:E; [|reflexivity]. exfalso. apply N. rewrite forallb_forall in E.
  assert (G : forall y, In y (x :: ms) -> x = y) by (intros y [->|K]; [reflexivity|apply Nat.eqb_eq, E, K]). rewrite <- (G m I). exact (G m' J).
Qed.
Lemma exprs_split es : Forall (fun e => match e with EOther s => clean s | _ => True end) es ->
  match arpeggios es with
  | [] => clean (exprs_text es)
  | [e] => exists a b, exprs_text es = a ++ expr_text e ++ b /\ clean a /\ clean b
  | _ => True
  end.
Proof.
  assert (G : forall es, Forall (fun e => match e with EOther s => clean s | _ => True end) es -> arpeggios es = [] -> clean (exprs_text es)).
  { clear. induction es as [|e es IH]; intros F A; [reflexivity|]. apply Forall_cons_iff in F as [Fe F]. destruct e; try discriminate. cbn [exprs_text flat_map expr_text]. fold (exprs_text es). specialize (IH F A). unfold clean in *. rewrite char_in_app, Fe, IH. reflexivity. }
  induction es as [|e es IH]; intro F; [reflexivity|]. apply Forall_cons_iff in F as [Fe F]. specialize (IH F).
  assert (Case : forall e, (match e with EOther _ => False | _ => True end) -> match e :: arpeggios es with [] => clean (exprs_text (e :: es)) | [e'] => exists a b, exprs_text (e :: es) = a ++ expr_text e' ++ b /\ clean a /\ clean b | _ => True end).
  { intros e0 _. destruct (arpeggios es) eqn:A; [|exact I]. exists [], (exprs_text es). split; [reflexivity|]. split; [reflexivity|apply G; assumption]. }
  destruct e as [|ms|s]; [exact (Case EMark I)|exact (Case (ESpanner ms) I)|]. cbn [arpeggios filter]. fold (arpeggios es).
  destruct (arpeggios es) as [|e1 [|e2 r]]; [|destruct IH as (a & b & E & Ca & Cb)|exact I].
  - cbn [exprs_text flat_map expr_text]. fold (exprs_text es). unfold clean in *. rewrite char_in_app, Fe, IH. reflexivity.
  - exists (s ++ a), b. cbn [exprs_text flat_map expr_text]. fold (exprs_text es). rewrite E, <- app_assoc. split; [reflexivity|]. split; [|exact Cb]. unfold clean in *. rewrite char_in_app, Fe, Ca. reflexivity.
Qed.
Lemma written_marks t es : written t es ->
  match arpeggios es with
  | [] => colon t = false
  | [e] => exists a b, t_text t = a ++ expr_text e ++ b /\ clean a /\ clean b
  | _ => True
  end.
Proof.
  intros [(pre & post & E & Cp & Cq) F]. pose proof (exprs_split es F) as X. destruct (arpeggios es) as [|e [|e2 r]]; [|destruct X as (a & b & X & Ca & Cb)|exact I].
  - unfold colon. rewrite E. apply contains_no_char. unfold clean in *. rewrite !char_in_app, Cp, X, Cq. reflexivity.
  - exists (pre ++ a), (b ++ post). rewrite E, X, <- !app_assoc. split; [reflexivity|]. unfold clean in *. rewrite !char_in_app, Cp, Ca, Cb, Cq. split; reflexivity.
Qed.
Lemma single_text a b : clean a -> clean b -> contains (S_ ":") (a ++ S_ ":" ++ b) = true /\ contains (S_ "::") (a ++ S_ ":" ++ b) = false.
Proof.
  intros Ca Cb. split.
  - change (S_ ":") with [":"%char]. rewrite contains_skip_list by exact Ca. cbn [app]. rewrite contains_cons. reflexivity.
  - change (S_ "::") with (":"%char :: [":"%char]). change (S_ ":") with [":"%char]. rewrite contains_skip_list by exact Ca. cbn [app]. rewrite contains_single.
    + apply contains_no_char. exact Cb.
    + destruct b as [|x b]; [exact I|]. unfold clean in Cb. rewrite char_in_cons in Cb. apply orb_false_iff in Cb. apply Cb.
Qed.
Lemma plain_marks t : plain t -> colon t = false.
Proof. intros (es & W & A). pose proof (written_marks t es W) as X. rewrite A in X. exact X. Qed.
Lemma staff_marks t : one_staff t -> colon t = true /\ double t = false.
Proof.
  intros (es & W & A). pose proof (written_marks t es W) as X. unfold colon, double.
  destruct A as [A|(m & ms & A & H)]; rewrite A in X; destruct X as (a & b & -> & Ca & Cb).
  - apply single_text; assumption.
  - cbn [expr_text]. rewrite (same_measure m ms H). apply single_text; assumption.
Qed.
Lemma system_marks t : several_staves t -> double t = true.
Proof.
  intros (es & m & m' & ms & W & A & I & J & N). pose proof (written_marks t es W) as X. rewrite A in X. destruct X as (a & b & X & Ca & Cb). unfold double. rewrite X. cbn [expr_text].
  rewrite (other_measure m m' ms I J N). change (S_ "::") with (":"%char :: [":"%char]). rewrite contains_skip_list by exact Ca. cbn [app]. rewrite contains_cons. reflexivity.
Qed.
Lemma run_all p G B : Forall (fun t => p t = true) G -> Forall (fun t => p t = false) B -> run p (G ++ B) = G.
Proof.
  intros HG HB. induction HG as [|t G Ht HG IH]; cbn [app run]; [|rewrite Ht, IH; reflexivity]. destruct HB as [|t B Ht HB]; [reflexivity|]. cbn. rewrite Ht. reflexivity.
Qed.
Lemma from_skip p A l : Forall (fun t => p t = false) A -> from p (A ++ l) = from p l.
Proof. induction 1 as [|t A Ht HA IH]; [reflexivity|]. cbn. rewrite Ht. exact IH. Qed.
Lemma not_double t : colon t = false -> double t = false.
Proof. intro H. destruct (double t) eqn:D; [apply double_colon in D; congruence|reflexivity]. Qed.

(** Arpeggios within staves, one at most for each staff with nothing seen between
    its notes: all come back. *)
Theorem C144_staff_arpeggios_partial : forall staves tracks arps,
  line_ok staves tracks ->
  Forall2 (fun s G => exists A B, filter seen s = A ++ G ++ B /\ Forall plain A /\ Forall plain B /\ Forall (fun t => one_staff t /\ t_note t = true) G) staves arps ->
  read_line (concat staves) = flat_map (fun G => match G with [] => [] | [t] => [Mark (t_id t)] | _ => [Spanner (map t_id G)] end) arps.
Proof.
  intros staves tracks arps OK H. rewrite (C144_read staves tracks OK). clear OK. generalize ([] : list tok) as lefts.
  induction H as [|s G staves arps (A & B & E & HA & HB & HG) H IH]; intro lefts; [reflexivity|]. cbn [by_staves flat_map]. rewrite IH. f_equal.
  unfold of_staff. rewrite E.
  assert (PA : Forall (fun t => colon t = false) A) by (revert HA; apply Forall_impl; apply plain_marks).
  assert (PB : Forall (fun t => colon t = false) B) by (revert HB; apply Forall_impl; apply plain_marks).
  rewrite from_skip by exact PA. destruct HG as [|t G [St Nt] HG].
  - cbn [app]. rewrite <- (app_nil_r B), from_skip by exact PB. reflexivity.
  - destruct (staff_marks t St) as [Ct Dt]. cbn [app from]. rewrite Ct, Nt, Dt. cbn [negb].
    change (t :: G ++ B) with ((t :: G) ++ B). rewrite run_all; [reflexivity| |exact PB].
    constructor; [exact Ct|]. revert HG. apply Forall_impl. intros x [Sx _]. apply (staff_marks x Sx).
Qed.
Print Assumptions C144_staff_arpeggios_partial.

(** An arpeggio over several staves, with nothing seen between its notes and no other
    one: it comes back. *)
Theorem C144_system_arpeggio_partial : forall staves tracks A G B,
  line_ok staves tracks -> filter seen (concat staves) = A ++ G ++ B -> Forall plain A -> Forall plain B ->
  Forall (fun t => several_staves t /\ t_note t = true) G -> 2 <= length G ->
  read_line (concat staves) = [Spanner (map t_id G)].
Proof.
  intros staves tracks A G B OK E HA HB HG LG. rewrite (C144_read staves tracks OK). clear OK.
  assert (PA : Forall (fun t => colon t = false) A) by (revert HA; apply Forall_impl; apply plain_marks).
  assert (PB : Forall (fun t => colon t = false) B) by (revert HB; apply Forall_impl; apply plain_marks).
  assert (DG : Forall (fun t => double t = true) G) by (revert HG; apply Forall_impl; intros x [Sx _]; apply system_marks, Sx).
  assert (NG : Forall (fun t => t_note t = true) G) by (revert HG; apply Forall_impl; tauto).
  clear HA HB HG.
  assert (After : forall staves lefts, existsb colon (filter seen lefts) = true -> (forall t, In t (filter seen (concat staves)) -> colon t = true -> double t = true) -> by_staves lefts staves = []).
  { clear. induction staves as [|s staves IH]; intros lefts H D; [reflexivity|]. cbn [by_staves]. rewrite IH.
    - rewrite app_nil_r. unfold of_staff. destruct (from colon (filter seen s)) as [|t r] eqn:F; [reflexivity|]. destruct (negb (t_note t)); [reflexivity|].
      assert (It : In t (filter seen s) /\ colon t = true).
      { clear - F. induction (filter seen s) as [|x l IH]; [discriminate|]. cbn [from] in F. destruct (colon x) eqn:C; [injection F as <- <-; split; [now left|exact C]|]. destruct (IH F). split; [now right|assumption]. }
      rewrite (D t); [rewrite H; reflexivity| |apply It]. cbn [concat]. rewrite filter_app. apply in_or_app. left. apply It.
    - rewrite filter_app, existsb_app, H. reflexivity.
    - intros t It. apply D. cbn [concat]. rewrite filter_app. apply in_or_app. now right. }
  assert (Dbl : forall t, In t (A ++ G ++ B) -> colon t = true -> double t = true).
  { intros t It Ct. apply in_app_or in It as [It|It]; [rewrite (proj1 (Forall_forall _ _) PA t It) in Ct; discriminate|]. apply in_app_or in It as [It|It]; [exact (proj1 (Forall_forall _ _) DG t It)|].
    rewrite (proj1 (Forall_forall _ _) PB t It) in Ct. discriminate. }
  assert (M : forall staves A lefts, existsb colon (filter seen lefts) = false -> Forall (fun t => colon t = false) A -> filter seen (concat staves) = A ++ G ++ B ->
    (forall t, In t (A ++ G ++ B) -> colon t = true -> double t = true) -> by_staves lefts staves = [Spanner (map t_id G)]).
  { clear - PB DG NG LG After. induction staves as [|s staves IH]; intros A lefts HL PA E Dbl.
    - cbn in E. exfalso. destruct A; [|discriminate]. destruct G; [cbn in LG; lia|discriminate].
    - cbn [by_staves concat] in *. rewrite filter_app in E.
      destruct (existsb colon (filter seen s)) eqn:Cs.
      + assert (X : exists A2 G1 r, filter seen s = A2 ++ G1 :: r /\ A = A2 /\ G1 :: r ++ filter seen (concat staves) = G ++ B).
        { assert (Split : exists a x r, filter seen s = a ++ x :: r /\ Forall (fun t => colon t = false) a /\ colon x = true).
          { clear - Cs. induction (filter seen s) as [|t l IH]; [discriminate|]. cbn [existsb] in Cs. destruct (colon t) eqn:C.
            - exists [], t, l. repeat split; [constructor|exact C].
            - destruct (IH Cs) as (a & x & r & -> & Ha & Cx). exists (t :: a), x, r. repeat split; [constructor; assumption|exact Cx]. }
          destruct Split as (a & x & r & Es & Ha & Cx). rewrite Es in E. rewrite <- app_assoc in E. cbn [app] in E.
          assert (Ea : A = a /\ x :: r ++ filter seen (concat staves) = G ++ B).
          { clear - E PA Ha Cx DG LG. revert a Ha E. induction A as [|y A IH]; intros a Ha E.
            - destruct a as [|z a]; [split; [reflexivity|exact E]|]. exfalso. apply Forall_cons_iff in Ha as [Hz _]. destruct G as [|g G]; [cbn in LG; lia|]. cbn in E. injection E as -> _.
              apply Forall_cons_iff in DG as [Dg _]. apply double_colon in Dg. congruence.
            - apply Forall_cons_iff in PA as [Py PA]. destruct a as [|z a]; cbn in E; injection E as E1 E2; [subst; congruence|]. apply Forall_cons_iff in Ha as [_ Ha].
              destruct (IH PA a Ha E2) as [-> E3]. subst z. split; [reflexivity|exact E3]. }
          destruct Ea as [-> Ea]. exists a, x, r. auto. }
        destruct X as (A2 & G1 & r & Es & -> & Eg). unfold of_staff. rewrite Es, from_skip by exact PA.
        assert (LGB : run double (G ++ B) = G) by (apply run_all; [exact DG|revert PB; apply Forall_impl; apply not_double]).
        destruct G as [|g G]; [cbn in LG; lia|]. pose proof Eg as Eg'. cbn in Eg. injection Eg as -> Eg. apply Forall_cons_iff in DG as [Dg DG]. apply Forall_cons_iff in NG as [Ng NG].
        cbn [from]. rewrite (double_colon g Dg), Ng, Dg, HL. cbn [negb]. rewrite Eg', LGB. rewrite After.
        * destruct G as [|g2 G]; [cbn in LG; lia|]. reflexivity.
        * rewrite filter_app, existsb_app, Es, existsb_app. cbn [existsb]. rewrite (double_colon g Dg), !orb_true_r. reflexivity.
        * intros t It. apply Dbl. apply in_or_app. right. rewrite <- Eg'. right. apply in_or_app. right. exact It.
      + unfold of_staff. rewrite from_none by exact Cs. cbn [app].
        assert (X : exists A2, A = filter seen s ++ A2).
        { clear - E Cs DG LG. revert A E. induction (filter seen s) as [|x l IH]; intros A E; [exists A; reflexivity|]. cbn [existsb] in Cs. apply orb_false_iff in Cs as [Cx Cs]. destruct A as [|y A].
          - exfalso. destruct G as [|g G]; [cbn in LG; lia|]. cbn in E. injection E as -> _. apply Forall_cons_iff in DG as [Dg _]. apply double_colon in Dg. congruence.
          - cbn in E. injection E as -> E. destruct (IH Cs A E) as [A2 ->]. exists A2. reflexivity. }
        destruct X as [A2 ->]. rewrite <- app_assoc in E. apply app_inv_head in E. apply (IH A2).
        * rewrite filter_app, existsb_app, HL, Cs. reflexivity.
        * apply Forall_app in PA. apply PA.
        * exact E.
        * intros t It. apply Dbl. rewrite <- app_assoc. apply in_or_app. now right. }
  exact (M staves A [] eq_refl PA E Dbl).
Qed.
Print Assumptions C144_system_arpeggio_partial.

(** ** What does not come back *)
Definition note_tok (i tr : nat) (es : list expr) : tok := mkTok i true tr false (S_ "4c" ++ exprs_text es ++ S_ "L") true.
Definition null_tok (i tr : nat) : tok := mkTok i true tr false (S_ ".") false.
(** A second voice that goes on in the lower staff ends the arpeggio over both. *)
Theorem C144_sustained_refuted : exists low mid high, several_staves low /\ several_staves high /\ t_text mid = S_ "." /\
  read_line [low; mid; high] = [Mark (t_id low)].
Proof.
  assert (W : forall i tr, several_staves (note_tok i tr [ESpanner [1; 2]])).
  { intros i tr. exists [ESpanner [1; 2]], 1, 2, [1; 2]. split; [split; [exists (S_ "4c"), (S_ "L"); repeat split|repeat constructor]|]. split; [reflexivity|]. cbn. split; [auto|]. split; [auto|discriminate]. }
  exists (note_tok 1 1 [ESpanner [1; 2]]), (null_tok 2 1), (note_tok 3 2 [ESpanner [1; 2]]). split; [apply W|]. split; [apply W|]. split; reflexivity.
Qed.
Print Assumptions C144_sustained_refuted.
(** A hidden rest counts as seen where it goes on. *)
Theorem C144_hidden_rest_refuted : exists low mid high, several_staves low /\ several_staves high /\ t_rest mid = true /\
  read_line [low; mid; high] = [Mark (t_id low)].
Proof.
  assert (W : forall i tr, several_staves (note_tok i tr [ESpanner [1; 2]])).
  { intros i tr. exists [ESpanner [1; 2]], 1, 2, [1; 2]. split; [split; [exists (S_ "4c"), (S_ "L"); repeat split|repeat constructor]|]. split; [reflexivity|]. cbn. split; [auto|]. split; [auto|discriminate]. }
  exists (note_tok 1 1 [ESpanner [1; 2]]), (mkTok 2 true 1 true (S_ ".") false), (note_tok 3 2 [ESpanner [1; 2]]). split; [apply W|]. split; [apply W|]. split; reflexivity.
Qed.
Print Assumptions C144_hidden_rest_refuted.
(** A chord that has a mark of its own and is in an arpeggio within its staff is read
    as if the arpeggio went over several staves, and loses its mates. *)
Theorem C144_two_marks_refuted : exists a b, one_staff b /\ t_track a = t_track b /\
  (exists es, written a es /\ arpeggios es = [ESpanner [1; 1]; EMark]) /\ read_line [a; b] = [Mark (t_id a)].
Proof.
  exists (note_tok 1 1 [ESpanner [1; 1]; EMark]), (note_tok 2 1 [ESpanner [1; 1]]). split.
  { exists [ESpanner [1; 1]]. split; [split; [exists (S_ "4c"), (S_ "L"); repeat split|repeat constructor]|]. right. exists 1, [1]. split; [reflexivity|repeat constructor]. }
  split; [reflexivity|]. split; [|reflexivity]. exists [ESpanner [1; 1]; EMark]. split; [|reflexivity]. split; [exists (S_ "4c"), (S_ "L"); repeat split|repeat constructor].
Qed.
Print Assumptions C144_two_marks_refuted.
(** An arpeggio of the lowest staff takes away one over the staves above. *)
Theorem C144_staff_and_system_refuted : exists a b c, one_staff a /\ several_staves b /\ several_staves c /\
  read_line [a; b; c] = [Mark (t_id a)].
Proof.
  assert (W : forall i tr, several_staves (note_tok i tr [ESpanner [1; 2]])).
  { intros i tr. exists [ESpanner [1; 2]], 1, 2, [1; 2]. split; [split; [exists (S_ "4c"), (S_ "L"); repeat split|repeat constructor]|]. split; [reflexivity|]. cbn. split; [auto|]. split; [auto|discriminate]. }
  exists (note_tok 1 1 [EMark]), (note_tok 2 2 [ESpanner [1; 2]]), (note_tok 3 3 [ESpanner [1; 2]]). split; [|split; [apply W|split; [apply W|reflexivity]]].
  exists [EMark]. split; [split; [exists (S_ "4c"), (S_ "L"); repeat split|repeat constructor]|]. left. reflexivity.
Qed.
Print Assumptions C144_staff_and_system_refuted.
(** Two arpeggios over two staves each become one over four. *)
Theorem C144_two_systems_refuted : exists a b c d, Forall several_staves [a; b; c; d] /\
  (exists es es', written a es /\ written b es /\ written c es' /\ written d es' /\ arpeggios es <> arpeggios es') /\
  read_line [a; b; c; d] = [Spanner (map t_id [a; b; c; d])].
Proof.
  exists (note_tok 1 1 [ESpanner [1; 2]]), (note_tok 2 2 [ESpanner [1; 2]]), (note_tok 3 3 [ESpanner [3; 4]]), (note_tok 4 4 [ESpanner [3; 4]]).
  assert (W : forall i tr m n, written (note_tok i tr [ESpanner [m; n]]) [ESpanner [m; n]]).
  { intros. split; [exists (S_ "4c"), (S_ "L"); repeat split|repeat constructor]. }
  assert (V : forall i tr m n, m <> n -> several_staves (note_tok i tr [ESpanner [m; n]])).
  { intros i tr m n N. exists [ESpanner [m; n]], m, n, [m; n]. split; [apply W|]. split; [reflexivity|]. cbn. auto. }
  split; [repeat (apply Forall_cons; [apply V; discriminate|]); apply Forall_nil|]. split; [|reflexivity].
  exists [ESpanner [1; 2]], [ESpanner [3; 4]]. split; [apply W|]. split; [apply W|]. split; [apply W|]. split; [apply W|discriminate].
Qed.
Print Assumptions C144_two_systems_refuted.

(** ** Cases *)
Definition side_tok (i tr : nat) : tok := mkTok i false tr false (S_ "f:") false.
Definition hidden_tok (i tr : nat) : tok := mkTok i true tr true (S_ "4ryy") false.
Lemma note_written i tr es : Forall (fun e => match e with EOther s => clean s | _ => True end) es -> written (note_tok i tr es) es.
Proof. intro H. split; [exists (S_ "4c"), (S_ "L"); repeat split|exact H]. Qed.
Definition case_staves : list (list tok) :=
  [ [note_tok 1 1 [EOther (S_ ";")]; note_tok 2 1 [ESpanner [7; 7]; EOther (S_ "t")]; hidden_tok 3 1; note_tok 4 1 [ESpanner [7; 7]]];
    [side_tok 5 2]; [null_tok 6 3; note_tok 7 3 [EMark]] ].
Example C144_staff_arpeggios_nonvacuous : read_line (concat case_staves) = [Spanner [2; 4]; Mark 7].
Proof.
  rewrite (C144_staff_arpeggios_partial case_staves [1; 2; 3] [[note_tok 2 1 [ESpanner [7; 7]; EOther (S_ "t")]; note_tok 4 1 [ESpanner [7; 7]]]; []; [note_tok 7 3 [EMark]]]); [reflexivity| |].
  - split; [repeat constructor; cbn; intuition discriminate|]. repeat (constructor; [repeat (constructor; [split; [reflexivity|intro; reflexivity || discriminate]|]); constructor|]). constructor.
  - constructor; [|constructor; [|constructor; [|constructor]]].
    + exists [note_tok 1 1 [EOther (S_ ";")]], []. split; [reflexivity|]. split; [|split; [constructor|]].
      * constructor; [|constructor]. exists [EOther (S_ ";")]. split; [apply note_written; repeat constructor|reflexivity].
      * constructor; [split; [|reflexivity]|constructor; [split; [|reflexivity]|constructor]].
        -- exists [ESpanner [7; 7]; EOther (S_ "t")]. split; [apply note_written; repeat constructor|]. right. exists 7, [7]. split; [reflexivity|repeat constructor].
        -- exists [ESpanner [7; 7]]. split; [apply note_written; repeat constructor|]. right. exists 7, [7]. split; [reflexivity|repeat constructor].
    + exists [], []. split; [reflexivity|]. repeat split; constructor.
    + exists [null_tok 6 3], []. split; [reflexivity|]. split; [|split; [constructor|]].
      * constructor; [|constructor]. exists []. split; [|reflexivity]. split; [exists (S_ "."), []; repeat split|constructor].
      * constructor; [split; [|reflexivity]|constructor]. exists [EMark]. split; [apply note_written; repeat constructor|]. left. reflexivity.
Qed.
Definition case_system : list (list tok) :=
  [ [null_tok 1 1; note_tok 2 1 [ESpanner [7; 8; 9]]]; [side_tok 3 2]; [note_tok 4 3 [ESpanner [7; 8; 9]]; hidden_tok 5 3]; [note_tok 6 4 [ESpanner [7; 8; 9]]; note_tok 7 4 []] ].
Example C144_system_arpeggio_nonvacuous : read_line (concat case_system) = [Spanner [2; 4; 6]].
Proof.
  assert (P : forall i tr es, Forall (fun e => match e with EOther s => clean s | _ => True end) es -> arpeggios es = [] -> plain (note_tok i tr es)) by (intros i tr es F A; exists es; split; [apply note_written, F|exact A]).
  rewrite (C144_system_arpeggio_partial case_system [1; 2; 3; 4] [null_tok 1 1] [note_tok 2 1 [ESpanner [7; 8; 9]]; note_tok 4 3 [ESpanner [7; 8; 9]]; note_tok 6 4 [ESpanner [7; 8; 9]]] [note_tok 7 4 []]); [reflexivity| |reflexivity| | | |cbn; lia].
  - split; [repeat constructor; cbn; intuition discriminate|]. repeat (constructor; [repeat (constructor; [split; [reflexivity|intro; reflexivity || discriminate]|]); constructor|]). constructor.
  - constructor; [|constructor]. exists []. split; [|reflexivity]. split; [exists (S_ "."), []; repeat split|constructor].
  - constructor; [apply P; [constructor|reflexivity]|constructor].
  - repeat (apply Forall_cons; [split; [|reflexivity]; exists [ESpanner [7; 8; 9]], 7, 8, [7; 8; 9]; split; [apply note_written; repeat constructor|split; [reflexivity|cbn; auto]]|]). apply Forall_nil.
Qed.

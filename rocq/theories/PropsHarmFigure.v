(** C160: from a printed chord symbol to music21's figure, and back. *)
From Coq Require Import List Ascii String Arith NArith ZArith Lia Bool Permutation.
From Verif Require Import PyStr PyStrProofs ClefModel HarteModel HarteProofs HarteSpec PropsHarte HarmModel HarmProofs PropsHarm.
Import ListNotations.

(** ** Figures *)

(** The pieces a figure is made of, after its root: a character, or one of the words that
    stand between spaces. *)
Inductive piece := P (c : N) | WAdd | WOmit | WAlter.
(** Characters that are neither a flat, nor a space, a slash or a hyphen, nor belong to
    the words that are replaced when a figure is printed, nor are signs. *)
Definition odd : list N := (map N_of_ascii (S_ "bdoli /-") ++
  [9837; 9839; 57952; 57954; 57955; 57956; 57957; 57958; 57959; 57960; 57961; 176])%N.
Definition plain (p : piece) : Prop := match p with P c => ~ In c odd | _ => True end.
(** The word between spaces or not; in the printed text sharps are signs. *)
Definition word (spaces : bool) (w : string) : utext := if spaces then U (" " ++ w ++ " ") else U w.
Definition show (a o l sign : bool) (p : piece) : utext :=
  match p with
  | P c => if sign && N.eqb c 35 then [smufl_sharp] else [c]
  | WAdd => word a "add"
  | WOmit => word o "omit"
  | WAlter => word l "alter"
  end.
Definition as_figure (ps : list piece) : utext := flat_map (show true true true false) ps.
Definition as_text (ps : list piece) : utext := flat_map (show false false false true) ps.

(** What may follow the pieces: nothing, or a slash and a bass of a capital and sharps. *)
Definition tail_ok (z : utext) : Prop := z = [] \/ exists l n, (65 <= l <= 71)%N /\ z = 47%N :: l :: repeat 35%N n.
Definition tail_signs (z : utext) : utext := map (fun c => if N.eqb c 35 then smufl_sharp else c) z.

Definition small (z : utext) : Prop := forall x, In x z -> ~ In x (map N_of_ascii (S_ "abdoliums -") ++ [9837; 9839; 57952; 57956; 57958; 57959; 176])%N.
Lemma tail_small z : tail_ok z -> small z.
Proof.
  intros [->|(l & n & Hl & ->)] x; [intros []|]. intros [<-|[<-|H]].
  - intro Q. apply u_in_In in Q. vm_compute in Q. discriminate.
  - intro Q. cbn in Q. repeat (destruct Q as [Q|Q]; [subst l; lia|]). exact Q.
  - apply repeat_spec in H. subst x. intro Q. apply u_in_In in Q. vm_compute in Q. discriminate.
Qed.
Lemma tail_signs_small z : tail_ok z -> small (tail_signs z).
Proof.
  intros Hz x Hx. unfold tail_signs in Hx. apply in_map_iff in Hx as (y & <- & Hy). destruct (N.eqb y 35).
  - intro Q. apply u_in_In in Q. vm_compute in Q. discriminate.
  - exact (tail_small z Hz y Hy).
Qed.

(** A character that is not replaced, followed by pieces. *)
Lemma heads a o l s ps z c t : Forall plain ps -> small z -> flat_map (show a o l s) ps ++ z = c :: t -> c <> 100%N /\ c <> 108%N /\ c <> 105%N.
Proof.
  intros H Hz E. destruct ps as [|p ps].
  - cbn in E. subst z. specialize (Hz c (or_introl eq_refl)). split; [|split]; intros ->; apply Hz; apply u_in_In; reflexivity.
  - inversion H as [|p' ps' Hp _]; subst p' ps'. cbn [flat_map] in E. rewrite <- app_assoc in E. destruct p as [x| | |]; cbn in E.
    + destruct (s && (x =? 35)%N) eqn:Q; injection E as <- _; [easy|]. split; [|split]; intros ->; apply Hp; apply u_in_In; reflexivity.
    + destruct a; injection E as <- _; easy.
    + destruct o; injection E as <- _; easy.
    + destruct l; injection E as <- _; easy.
Qed.

Lemma none_at x y p t c : (c = x -> forall c' t', t = c' :: t' -> c' <> y) -> u_prefix (x :: y :: p) (c :: t) = None.
Proof.
  intro H. cbn [u_prefix]. destruct (N.eqb_spec x c); [|reflexivity]. destruct t as [|c' t]; [reflexivity|].
  destruct (N.eqb_spec y c') as [Q|]; [|reflexivity]. exfalso. apply (H (eq_sym e) c' t eq_refl). congruence.
Qed.
Ltac skip := rewrite u_sub_skip; [|reflexivity].
Ltac skips := repeat skip.

Section Passes.
Context (ps : list piece) (z : utext) (Hps : Forall plain ps) (Hz : small z).

Lemma absent_small x p r : In x p -> In x (map N_of_ascii (S_ "abdoliums -") ++ [9837; 9839; 57952; 57956; 57958; 57959; 176])%N -> u_sub p r z = z.
Proof. intros A B. apply (u_sub_absent p r x); [exact A|]. intro Q. exact (Hz x Q B). Qed.

Lemma pass_add s : u_sub (U "add") (U " add ") (flat_map (show false false false s) ps ++ z) = flat_map (show true false false s) ps ++ z.
Proof.
  revert Hps. induction ps as [|p l IH]; intro H.
  - apply (absent_small 97); apply u_in_In; reflexivity.
  - inversion H as [|p' l' Hp Hl]; subst p' l'. cbn [flat_map]. rewrite <- !app_assoc.
    pose proof (fun c t => heads false false false s l z c t Hl Hz) as Hd. destruct p as [x| | |]; cbn [show].
    + destruct (s && (x =? 35)%N); cbn [app]; (rewrite u_sub_skip; [f_equal; exact (IH Hl)|]); [reflexivity|].
      apply none_at. intros _ c' t' E. exact (proj1 (Hd _ _ E)).
    + change (word false "add") with (U "add"). rewrite u_sub_hit by discriminate. f_equal. exact (IH Hl).
    + cbn [word app U S_ list_ascii_of_string map N_of_ascii]. skips. do 4 f_equal. exact (IH Hl).
    + cbn [word app U S_ list_ascii_of_string map N_of_ascii]. skips. do 5 f_equal. exact (IH Hl).
Qed.
Lemma pass_omit s : u_sub (U "omit") (U " omit ") (flat_map (show true false false s) ps ++ z) = flat_map (show true true false s) ps ++ z.
Proof.
  revert Hps. induction ps as [|p l IH]; intro H.
  - apply (absent_small 111); apply u_in_In; reflexivity.
  - inversion H as [|p' l' Hp Hl]; subst p' l'. cbn [flat_map]. rewrite <- !app_assoc. destruct p as [x| | |]; cbn [show].
    + destruct (s && (x =? 35)%N); cbn [app]; (rewrite u_sub_skip; [f_equal; exact (IH Hl)|]); [reflexivity|].
      cbn [u_prefix U S_ list_ascii_of_string map]. change (N_of_ascii "o") with 111%N.
      destruct (N.eqb_spec 111 x) as [<-|]; [|reflexivity]. exfalso. apply Hp. apply u_in_In. reflexivity.
    + cbn [word app U S_ list_ascii_of_string map N_of_ascii String.append]. skips. do 5 f_equal. exact (IH Hl).
    + change (word false "omit") with (U "omit"). rewrite u_sub_hit by discriminate. f_equal. exact (IH Hl).
    + cbn [word app U S_ list_ascii_of_string map N_of_ascii]. skips. do 5 f_equal. exact (IH Hl).
Qed.
Lemma pass_alter s : u_sub (U "alter") (U " alter ") (flat_map (show true true false s) ps ++ z) = flat_map (show true true true s) ps ++ z.
Proof.
  revert Hps. induction ps as [|p l IH]; intro H.
  - apply (absent_small 97); apply u_in_In; reflexivity.
  - inversion H as [|p' l' Hp Hl]; subst p' l'. cbn [flat_map]. rewrite <- !app_assoc.
    pose proof (fun c t => heads true true false s l z c t Hl Hz) as Hd. destruct p as [x| | |]; cbn [show].
    + destruct (s && (x =? 35)%N); cbn [app]; (rewrite u_sub_skip; [f_equal; exact (IH Hl)|]); [reflexivity|].
      apply none_at. intros _ c' t' E. exact (proj1 (proj2 (Hd _ _ E))).
    + cbn [word app U S_ list_ascii_of_string map N_of_ascii String.append]. skips. do 5 f_equal. exact (IH Hl).
    + cbn [word app U S_ list_ascii_of_string map N_of_ascii String.append]. skips. do 6 f_equal. exact (IH Hl).
    + change (word false "alter") with (U "alter"). rewrite u_sub_hit by discriminate. f_equal. exact (IH Hl).
Qed.
Lemma no_b a o l s : ~ In 98%N (flat_map (show a o l s) ps ++ z).
Proof.
  intro H. apply in_app_or in H as [H|H]; [|exact (Hz 98%N H ltac:(apply u_in_In; reflexivity))].
  apply in_flat_map in H as (p & Hp & H). rewrite Forall_forall in Hps. specialize (Hps p Hp). destruct p as [x| | |]; cbn [show] in H.
  - destruct (s && (x =? 35)%N); destruct H as [H|[]]; [discriminate|]. subst x. apply Hps. apply u_in_In. reflexivity.
  - apply u_in_In in H. destruct a; discriminate.
  - apply u_in_In in H. destruct o; discriminate.
  - apply u_in_In in H. destruct l; discriminate.
Qed.
Lemma pass_dim r : u_sub (U "dim") r (as_text ps ++ z) = as_text ps ++ z.
Proof.
  unfold as_text. revert Hps. induction ps as [|p l IH]; intro H.
  - apply (absent_small 100); apply u_in_In; reflexivity.
  - inversion H as [|p' l' Hp Hl]; subst p' l'. cbn [flat_map]. rewrite <- !app_assoc.
    pose proof (fun c t => heads false false false true l z c t Hl Hz) as Hd. destruct p as [x| | |]; cbn [show].
    + destruct (true && (x =? 35)%N); cbn [app]; (rewrite u_sub_skip; [f_equal; exact (IH Hl)|]); [reflexivity|].
      apply none_at. intros _ c' t' E. exact (proj2 (proj2 (Hd _ _ E))).
    + cbn [word app U S_ list_ascii_of_string map N_of_ascii]. skip. skip. rewrite u_sub_skip; [do 3 f_equal; exact (IH Hl)|].
      apply none_at. intros _ c' t' E. exact (proj2 (proj2 (Hd _ _ E))).
    + cbn [word app U S_ list_ascii_of_string map N_of_ascii]. skips. do 4 f_equal. exact (IH Hl).
    + cbn [word app U S_ list_ascii_of_string map N_of_ascii]. skips. do 5 f_equal. exact (IH Hl).
Qed.
Lemma pass_o y q r : y <> 109%N -> u_sub (111%N :: y :: q) r (as_text ps ++ z) = as_text ps ++ z.
Proof.
  intro Hy. unfold as_text. revert Hps. induction ps as [|p l IH]; intro H.
  - apply (absent_small 111); [left; reflexivity|apply u_in_In; reflexivity].
  - inversion H as [|p' l' Hp Hl]; subst p' l'. cbn [flat_map]. rewrite <- !app_assoc. destruct p as [x| | |]; cbn [show].
    + destruct (true && (x =? 35)%N); cbn [app]; (rewrite u_sub_skip; [f_equal; exact (IH Hl)|]); [reflexivity|].
      apply none_at. intros -> . exfalso. apply Hp. apply u_in_In. reflexivity.
    + cbn [word app U S_ list_ascii_of_string map N_of_ascii]. skips. do 3 f_equal. exact (IH Hl).
    + cbn [word app U S_ list_ascii_of_string map N_of_ascii]. rewrite u_sub_skip.
      * skips. do 4 f_equal. exact (IH Hl).
      * apply none_at. intros _ c' t' E. injection E as <- _. intro Q. apply Hy. rewrite <- Q. reflexivity.
    + cbn [word app U S_ list_ascii_of_string map N_of_ascii]. skips. do 5 f_equal. exact (IH Hl).
Qed.
End Passes.

Lemma sub_after x p r pre t : ~ In x pre -> u_sub (x :: p) r (pre ++ t) = pre ++ u_sub (x :: p) r t.
Proof.
  induction pre as [|c pre IH]; [reflexivity|]. intro H. cbn [app]. rewrite u_sub_skip.
  - f_equal. apply IH. intro; apply H; right; assumption.
  - cbn. destruct (N.eqb_spec x c); [|reflexivity]. exfalso. apply H. left. congruence.
Qed.

(** A figure: root, flats of the root, pieces, bass. *)
Definition figure (l : N) (n : nat) (ps : list piece) (z : utext) : utext := l :: repeat 45%N n ++ as_figure ps ++ z.
(** The text a reader of the score sees. *)
Definition shown (l : N) (n : nat) (ps : list piece) (z : utext) : utext := l :: repeat smufl_flat n ++ as_text ps ++ tail_signs z.

Lemma printing_pieces ps : Forall plain ps ->
  flat_map print_char (flat_map (fun c => if N.eqb c 45 then U "b" else [c]) (as_figure ps)) = as_text ps.
Proof.
  induction 1 as [|p l Hp _ IH]; [reflexivity|]. unfold as_figure, as_text in *. cbn [flat_map]. rewrite !flat_map_app, IH. f_equal.
  destruct p as [x| | |]; try reflexivity. cbn [show andb]. cbn [flat_map app].
  destruct (N.eqb_spec x 45) as [->|]; [exfalso; apply Hp; apply u_in_In; reflexivity|]. cbn [flat_map app]. rewrite app_nil_r.
  unfold print_char. destruct (N.eqb_spec x 98) as [->|]; [exfalso; apply Hp; apply u_in_In; reflexivity|].
  destruct (N.eqb_spec x 35) as [->|]; [reflexivity|]. destruct (N.eqb_spec x 32) as [->|]; [exfalso; apply Hp; apply u_in_In; reflexivity|]. reflexivity.
Qed.
Lemma printing_tail z : tail_ok z -> flat_map print_char (flat_map (fun c => if N.eqb c 45 then U "b" else [c]) z) = tail_signs z.
Proof.
  intro H. apply tail_small in H. induction z as [|x z IH]; [reflexivity|]. cbn [flat_map tail_signs map].
  assert (Hx := H x (or_introl eq_refl)).
  destruct (N.eqb_spec x 45) as [->|]; [exfalso; apply Hx; apply u_in_In; reflexivity|]. cbn [app flat_map].
  unfold print_char at 1. destruct (N.eqb_spec x 98) as [->|]; [exfalso; apply Hx; apply u_in_In; reflexivity|].
  destruct (N.eqb_spec x 35) as [->|]; [|destruct (N.eqb_spec x 32) as [->|]; [exfalso; apply Hx; apply u_in_In; reflexivity|]];
    cbn [app]; f_equal; apply IH; intros y Hy; apply H; right; exact Hy.
Qed.

(** C160: a figure is printed with signs in place of accidentals, without spaces, and with
    everything else as it is. *)
Theorem C160_printed_partial l n ps z : (65 <= l <= 71)%N -> Forall plain ps -> tail_ok z ->
  printable false (figure l n ps z) = shown l n ps z.
Proof.
  intros Hl Hp Hz. unfold printable, figure. rewrite (u_sub_absent (U "subtract") (U "omit") 98).
  2: apply u_in_In; reflexivity.
  2: { intros [Q|Q]; [lia|]. apply in_app_or in Q as [Q|Q]; [apply repeat_spec in Q; discriminate|].
       exact (no_b ps z Hp (tail_small z Hz) true true true false Q). }
  change (U "-") with [45%N]. rewrite u_sub_char. cbn [flat_map]. rewrite !flat_map_app.
  destruct (N.eqb_spec l 45); [lia|]. cbn [app flat_map].
  rewrite (printing_pieces ps Hp), (printing_tail z Hz).
  rewrite (flat_repeat _ 45 98 n eq_refl), (flat_repeat print_char 98 smufl_flat n eq_refl).
  assert (E : print_char l = [l]).
  { unfold print_char. destruct (N.eqb_spec l 98); [lia|]. destruct (N.eqb_spec l 35); [lia|]. destruct (N.eqb_spec l 32); [lia|]. reflexivity. }
  rewrite E. cbn [app]. fold (shown l n ps z).
  assert (Hs : small (tail_signs z)) by (apply tail_signs_small; exact Hz).
  assert (Pre : forall x, (97 <= x <= 122)%N -> ~ In x (l :: repeat smufl_flat n)).
  { intros x Hx [Q|Q]; [lia|]. apply repeat_spec in Q. subst x. unfold smufl_flat in Hx. lia. }
  assert (D : u_sub (U "dim") [degree_sign] (shown l n ps z) = shown l n ps z).
  { unfold shown. rewrite app_comm_cons. change (U "dim") with (100%N :: U "im"). rewrite sub_after by (apply Pre; lia). f_equal. apply pass_dim; assumption. }
  assert (O : forall y q r, y <> 109%N -> u_sub (111%N :: y :: q) r (shown l n ps z) = shown l n ps z).
  { intros y q r Hy. unfold shown. rewrite app_comm_cons, sub_after by (apply Pre; lia). f_equal. apply pass_o; assumption. }
  unfold tweaks. rewrite D. destruct (u_in 111 (shown l n ps z)); [|reflexivity].
  change (U "o7") with [111%N; 55%N]. rewrite O by discriminate. change (U "o9") with [111%N; 57%N]. rewrite O by discriminate.
  change (U "o" ++ smufl_flat :: U "9") with [111%N; smufl_flat; 57%N]. rewrite O by discriminate.
  change (U "o11") with [111%N; 49%N; 49%N]. rewrite O by discriminate. reflexivity.
Qed.
Print Assumptions C160_printed_partial.

Lemma accid_none c : ~ In c [9837; 9839; 57952; 57954; 57955; 57956; 57957; 57958; 57959; 57960; 57961]%N -> accid_ascii c accid_table = None.
Proof.
  intro H. unfold accid_table, accid_ascii, sign_flat, sign_sharp, smufl_flat, smufl_sharp, smufl_double_sharp, smufl_double_flat, smufl_triple_sharp,
    smufl_triple_flat, smufl_natural_flat, smufl_natural_sharp, smufl_sharp_sharp.
  repeat match goal with |- context [N.eqb c ?k] => destruct (N.eqb_spec c k) as [->|_]; [exfalso; apply H; apply u_in_In; reflexivity|] end.
  reflexivity.
Qed.
Lemma rest_plain hy c t : c <> 47%N -> accid_ascii c accid_table = None -> rest_loop hy (c :: t) = c :: rest_loop hy t.
Proof. intros H E. cbn [rest_loop]. rewrite E. destruct (N.eqb_spec c 47); [congruence|]. reflexivity. Qed.
Lemma rest_sharp hy t : rest_loop hy (smufl_sharp :: t) = 35%N :: rest_loop hy t.
Proof. destruct hy; reflexivity. Qed.
Lemma rest_flats n t : rest_loop true (repeat smufl_flat n ++ t) = repeat 45%N n ++ rest_loop true t.
Proof. induction n; [reflexivity|]. cbn [repeat app]. etransitivity; [|exact (f_equal (cons 45%N) IHn)]. reflexivity. Qed.
Lemma rest_tail z : tail_ok z -> rest_loop true (tail_signs z) = z.
Proof.
  intros [->|(l & n & Hl & ->)]; [reflexivity|]. cbn [tail_signs map]. change (N.eqb 47 35) with false. cbn iota.
  destruct (N.eqb_spec l 35); [lia|]. change (rest_loop true (47%N :: ?t)) with (47%N :: rest_loop false t). f_equal.
  rewrite rest_plain; [|lia|apply accid_none; intro Q; cbn in Q; lia]. f_equal.
  induction n; [reflexivity|]. cbn [repeat map]. change (N.eqb 35 35) with true. cbn iota. rewrite rest_sharp. f_equal. assumption.
Qed.
Lemma rest_pieces ps z : Forall plain ps -> rest_loop true (flat_map (show true true true true) ps ++ z) = as_figure ps ++ rest_loop true z.
Proof.
  induction 1 as [|p l Hp _ IH]; [reflexivity|]. unfold as_figure in *. cbn [flat_map]. rewrite <- !app_assoc. destruct p as [x| | |].
  - cbn [show andb app]. destruct (N.eqb_spec x 35) as [->|].
    + cbn [app]. rewrite rest_sharp. f_equal. exact IH.
    + cbn [app]. rewrite rest_plain; [f_equal; exact IH| |].
      * intros ->. apply Hp. apply u_in_In. reflexivity.
      * apply accid_none. intro Q. apply Hp. unfold odd. apply in_or_app. right. cbn in Q |- *. tauto.
  - cbn [show word app U S_ list_ascii_of_string map String.append]. do 5 (rewrite rest_plain; [f_equal|discriminate|reflexivity]). exact IH.
  - cbn [show word app U S_ list_ascii_of_string map String.append]. do 6 (rewrite rest_plain; [f_equal|discriminate|reflexivity]). exact IH.
  - cbn [show word app U S_ list_ascii_of_string map String.append]. do 7 (rewrite rest_plain; [f_equal|discriminate|reflexivity]). exact IH.
Qed.

(** C160: the figure that is made of the printed text is the figure that was printed.
    Missing: flats other than those of the root, chords printed with a degree sign, and
    subtract, which comes back as omit; see the counterexamples below. *)
Theorem C160_figure_back_partial fuel l n ps z : (65 <= l <= 71)%N -> Forall plain ps -> tail_ok z ->
  figure_of_text (S fuel) (printable false (figure l n ps z)) = Some (figure l n ps z).
Proof.
  intros Hl Hp Hz. rewrite C160_printed_partial by assumption. unfold figure_of_text.
  assert (Hs : small (tail_signs z)) by (apply tail_signs_small; exact Hz).
  assert (Pre : forall x, (97 <= x <= 122)%N -> ~ In x (l :: repeat smufl_flat n)).
  { intros x Hx [Q|Q]; [lia|]. apply repeat_spec in Q. subst x. unfold smufl_flat in Hx. lia. }
  assert (E : spaced (shown l n ps z) = l :: repeat smufl_flat n ++ flat_map (show true true true true) ps ++ tail_signs z).
  { unfold spaced, shown. rewrite app_comm_cons. unfold as_text.
    change (U "add") with (97%N :: U "dd"). rewrite sub_after by (apply Pre; lia). change (97%N :: U "dd") with (U "add"). rewrite pass_add by assumption.
    change (U "omit") with (111%N :: U "mit"). rewrite sub_after by (apply Pre; lia). change (111%N :: U "mit") with (U "omit"). rewrite pass_omit by assumption.
    rewrite (u_sub_absent (U "subtract") _ 98).
    2: apply u_in_In; reflexivity.
    2: { intro Q. apply in_app_or in Q as [Q|Q]; [exact (Pre 98%N ltac:(lia) Q)|]. exact (no_b ps _ Hp Hs true true false true Q). }
    change (U "alter") with (97%N :: U "lter"). rewrite sub_after by (apply Pre; lia). change (97%N :: U "lter") with (U "alter"). rewrite pass_alter by assumption.
    reflexivity. }
  rewrite E. cbn [root_loop]. rewrite (accid_none l) by (intro Q; cbn in Q; lia). cbn [option_map skipn app]. unfold figure. do 2 f_equal.
  rewrite rest_flats. f_equal. rewrite rest_pieces by exact Hp. f_equal. apply rest_tail. exact Hz.
Qed.
Print Assumptions C160_figure_back_partial.

(** ** Coming to an end *)

(** The signs for accidentals that a text may contain. *)
Definition sign_codes : list N := [9837; 9839; 57952; 57954; 57955; 57956; 57957; 57958; 57959; 57960; 57961]%N.
Lemma accid_some c : In c sign_codes -> exists a, accid_ascii c accid_table = Some a /\ a <> [].
Proof. intro H. cbn in H. repeat (destruct H as [<-|H]; [eexists; split; [reflexivity|discriminate]|]). destruct H. Qed.

Lemma sub_head p x r t : p <> [] -> match t with [] => u_sub p (x :: r) t = []
  | c :: _ => exists q d, u_sub p (x :: r) t = d :: q /\ (d = c \/ d = x) end.
Proof.
  intro Hp. destruct t as [|c t]; [reflexivity|]. destruct (u_prefix p (c :: t)) as [t'|] eqn:E.
  - apply u_prefix_some in E. rewrite E, u_sub_hit by exact Hp. eexists _, x. split; [reflexivity|auto].
  - rewrite u_sub_skip by exact E. eexists _, c. split; [reflexivity|auto].
Qed.
Lemma spaced_head c t : exists q d, spaced (c :: t) = d :: q /\ (d = c \/ d = 32%N).
Proof.
  unfold spaced. cbv zeta.
  destruct (sub_head (U "add") 32 (U "add ") (c :: t)) as (q1 & d1 & E1 & H1); [discriminate|].
  change (32%N :: U "add ") with (U " add ") in E1. rewrite E1.
  destruct (sub_head (U "omit") 32 (U "omit ") (d1 :: q1)) as (q2 & d2 & E2 & H2); [discriminate|].
  change (32%N :: U "omit ") with (U " omit ") in E2. rewrite E2.
  destruct (sub_head (U "subtract") 32 (U "omit ") (d2 :: q2)) as (q3 & d3 & E3 & H3); [discriminate|].
  change (32%N :: U "omit ") with (U " omit ") in E3. rewrite E3.
  destruct (sub_head (U "alter") 32 (U "alter ") (d3 :: q3)) as (q4 & d4 & E4 & H4); [discriminate|].
  change (32%N :: U "alter ") with (U " alter ") in E4. rewrite E4.
  exists q4, d4. split; [reflexivity|]. destruct H4 as [->| ->], H3 as [->| ->], H2 as [->| ->], H1 as [->| ->]; auto.
Qed.

(** C160: a text that does not begin with a sign is turned into a figure, however long one
    waits. *)
Theorem C160_ends_partial t : (forall c t', t = c :: t' -> ~ In c sign_codes) ->
  exists f, forall fuel, figure_of_text (S fuel) t = Some f.
Proof.
  intro H. destruct t as [|c t]; [exists []; reflexivity|].
  destruct (spaced_head c t) as (q & d & E & Hd). assert (A : accid_ascii d accid_table = None).
  { destruct Hd as [->| ->]; [apply accid_none; exact (H c t eq_refl)|reflexivity]. }
  eexists. intro fuel. unfold figure_of_text. rewrite E. cbn [root_loop]. rewrite A. cbn [option_map]. reflexivity.
Qed.
Print Assumptions C160_ends_partial.

Lemma root_loop_never c : In c sign_codes -> forall fuel i o, root_loop fuel c i o = None.
Proof.
  intros H. destruct (accid_some c H) as (a & E & _). induction fuel as [|n IH]; [reflexivity|]. intros i o. cbn [root_loop]. rewrite E. apply IH.
Qed.
Lemma spaced_sign c t : In c sign_codes -> exists q, spaced (c :: t) = c :: q.
Proof.
  intro H. unfold spaced. cbv zeta.
  assert (K : forall p t', In p [U "add"; U "omit"; U "subtract"; U "alter"] -> u_prefix p (c :: t') = None).
  { intros p t' Hp. cbn in H. repeat (destruct H as [<-|H]; [cbn in Hp; repeat (destruct Hp as [<-|Hp]; [reflexivity|]); destruct Hp|]). destruct H. }
  eexists. rewrite (u_sub_skip (U "add")) by (apply K; cbn; tauto). rewrite (u_sub_skip (U "omit")) by (apply K; cbn; tauto).
  rewrite (u_sub_skip (U "subtract")) by (apply K; cbn; tauto). rewrite (u_sub_skip (U "alter")) by (apply K; cbn; tauto). reflexivity.
Qed.
(** A text that begins with a sign keeps the reader busy for ever, whatever follows. *)
Theorem C160_leading_never_ends types set_order unescape of_figure top fuel staff ts ty c t :
  In c sign_codes -> reg_of ty = NoReg -> (forall u, u = c :: t -> unescape u = u /\ u_trimmed u) ->
  harm_of types set_order unescape of_figure top fuel (HarmEl false staff (Some ts) (Some ty) (c :: t)) = Running.
Proof.
  intros H Hr Hu. destruct (Hu _ eq_refl) as (Hu1 & Hu2). unfold harm_of. cbn [e_fb e_staff e_tstamp e_type e_text].
  rewrite Hu1, (u_strip_id _ Hu2), Hr. cbn [orb by_reg].
  assert (E : existsb (u_eqb (map u_lower (c :: t))) no_chord_texts = false).
  { apply not_no_chord. intros (n & Hn & F). cbn in H, Hn.
    repeat (destruct Hn as [<-|Hn]; [inversion F as [|x a t1 s1 Q]; subst; repeat (destruct H as [<-|H]; [cbn in Q; lia|]); destruct H|]). destruct Hn. }
  rewrite E. unfold by_text, figure_of_text. destruct (spaced_sign c t H) as (q & ->). rewrite (root_loop_never c H). reflexivity.
Qed.
Print Assumptions C160_leading_never_ends.

(** C160: a chord symbol of a kind without regular form is read from its printed figure,
    if music21 knows that figure. *)
Theorem C160_by_text_partial types set_order unescape of_figure top fuel staff ts l n ps z s k :
  (65 <= l <= 71)%N -> Forall plain ps -> tail_ok z -> staff <> [] ->
  (forall t, t = shown l n ps z -> unescape t = t /\ u_trimmed t /\ ~ means_no_chord t) ->
  of_figure (figure l n ps z) = Some (s, k) -> 2 <= k ->
  exists h, harm_of types set_order unescape of_figure top (S fuel) (HarmEl false (Some staff) (Some ts) None (printable false (figure l n ps z))) = Read staff ts h
    /\ h_sym h = s /\ h_full h = Some (shown l n ps z).
Proof.
  intros Hl Hp Hz Hst Hu Hf Hk. destruct (Hu _ eq_refl) as (Hu1 & Hu2 & Hu3).
  pose proof (C160_figure_back_partial fuel l n ps z Hl Hp Hz) as B. rewrite C160_printed_partial in * by assumption.
  unfold harm_of. cbn [e_fb e_staff e_tstamp e_type e_text]. rewrite Hu1, (u_strip_id _ Hu2), (not_no_chord _ Hu3).
  change (reg_of []) with NoReg. cbn [orb by_reg]. unfold by_text. rewrite B. unfold by_figure at 1. rewrite Hf.
  destruct (Nat.eqb_spec k 0); [lia|]. destruct (Nat.eqb_spec k 1); [lia|]. cbn [orb andb]. destruct staff; [congruence|].
  eexists. split; [reflexivity|]. split; reflexivity.
Qed.
Print Assumptions C160_by_text_partial.
(** C160: what music21 makes no chord of, in neither spelling, gives nothing. *)
Theorem C160_no_chord_of_text types set_order unescape of_figure top fuel staff ts t :
  ~ means_no_chord t -> unescape t = t -> u_trimmed t -> (forall c t', t = c :: t' -> ~ In c sign_codes) ->
  (forall f, of_figure f = None \/ exists s, of_figure f = Some (s, 0)) ->
  harm_of types set_order unescape of_figure top (S fuel) (HarmEl false staff (Some ts) None t) = Skipped.
Proof.
  intros Hn Hu Ht Hc Hf. unfold harm_of. cbn [e_fb e_staff e_tstamp e_type e_text]. rewrite Hu, (u_strip_id _ Ht), (not_no_chord _ Hn).
  change (reg_of []) with NoReg. cbn [orb by_reg]. unfold by_text. destruct (C160_ends_partial t Hc) as (f & ->).
  unfold by_figure. destruct (Hf f) as [->|(s1 & ->)]; cbn [Nat.eqb orb];
    (destruct (Hf (u_sub [degree_sign] (U "dim") (u_sub (U "maj6") (U "6") f))) as [->|(s2 & ->)]; reflexivity).
Qed.
Print Assumptions C160_no_chord_of_text.

(** C160: how each sign after the root is spelt in the figure. *)
Theorem C160_signs fuel l c w : (65 <= l <= 71)%N ->
  In (c, w) [(9837, "-"); (9839, "#"); (57952, "-"); (57954, "#"); (57955, "##"); (57956, "--"); (57957, "###"); (57958, "---"); (57959, "-");
             (57960, "#"); (57961, "##")]%N%string ->
  figure_of_text (S fuel) [l; c] = Some (l :: U w).
Proof.
  intros Hl H. unfold figure_of_text. assert (E : spaced [l; c] = [l; c]).
  { assert (A : forall x, In x [97; 111; 98]%N -> ~ In x [l; c]).
    { intros x Hx [Q|[Q|[]]]; [cbn in Hx; lia|]. subst x. cbn in H, Hx. repeat (destruct H as [H|H]; [injection H as <- _; lia|]). destruct H. }
    unfold spaced. rewrite (u_sub_absent (U "add") _ 97), (u_sub_absent (U "omit") _ 111), (u_sub_absent (U "subtract") _ 98), (u_sub_absent (U "alter") _ 97);
      try (apply u_in_In; reflexivity); try (apply A; cbn; tauto). reflexivity. }
  rewrite E. cbn [root_loop]. rewrite (accid_none l) by (intro Q; cbn in Q; lia). cbn [option_map skipn app].
  cbn in H. repeat (destruct H as [H|H]; [injection H as <- <-; reflexivity|]). destruct H.
Qed.
Print Assumptions C160_signs.


(** ** Cases *)

(** B flat sus, plus an added sharp ninth, without the fifth, over F sharp. *)
Definition bflat : list piece := [P 115; P 117; P 115; P 52; WAdd; P 35; P 57; WOmit; P 53]%N.
Lemma bflat_plain : Forall plain bflat.
Proof. repeat (constructor; [first [exact Logic.I|intro Q; apply u_in_In in Q; vm_compute in Q; discriminate]|]). constructor. Qed.
Example C160_figure_back_nonvacuous :
  figure 66 1 bflat (U "/F#") = U "B-sus4 add #9 omit 5/F#"
  /\ figure_of_text 1 (printable false (figure 66 1 bflat (U "/F#"))) = Some (U "B-sus4 add #9 omit 5/F#").
Proof.
  split; [vm_compute; reflexivity|]. rewrite C160_figure_back_partial; [vm_compute; reflexivity|lia|exact bflat_plain|].
  right. exists 70%N, 1. split; [lia|reflexivity].
Qed.
Example C160_printed_nonvacuous :
  printable false (U "B-sus4 add #9 omit 5/F#") = [66%N; smufl_flat] ++ U "sus4add" ++ [smufl_sharp] ++ U "9omit5/F" ++ [smufl_sharp].
Proof.
  change (U "B-sus4 add #9 omit 5/F#") with (figure 66 1 bflat (U "/F#")). rewrite C160_printed_partial; [vm_compute; reflexivity|lia|exact bflat_plain|].
  right. exists 70%N, 1. split; [lia|reflexivity].
Qed.
Example C160_ends_nonvacuous : exists f, forall fuel, figure_of_text (S fuel) (U "Cm" ++ [smufl_flat; 53%N]) = Some f.
Proof. apply C160_ends_partial. intros c t' E. injection E as <- _. intro Q. apply u_in_In in Q. vm_compute in Q. discriminate. Qed.

Example C160_by_text_nonvacuous : exists h,
  harm_of table (fun l => l) (fun t => t) (fun f => if u_eqb f (U "B-sus4 add #9 omit 5/F#") then Some (Sym eb_minor, 5) else None) (U "1") 1
    (HarmEl false (Some (U "2")) (Some (U "1")) None (printable false (U "B-sus4 add #9 omit 5/F#"))) = Read (U "2") (U "1") h
  /\ h_sym h = Sym eb_minor /\ h_full h = Some (shown 66 1 bflat (U "/F#")).
Proof.
  change (U "B-sus4 add #9 omit 5/F#") with (figure 66 1 bflat (U "/F#")).
  apply C160_by_text_partial with (k := 5); [lia|exact bflat_plain|right; exists 70%N, 1; split; [lia|reflexivity]|discriminate| |vm_compute; reflexivity|lia].
  intros t ->. split; [reflexivity|]. split.
  - apply (trimmed_by 66%N smufl_sharp (smufl_flat :: U "sus4add" ++ smufl_sharp :: U "9omit5/F")); reflexivity.
  - intros (m & Hm & F). assert (L : List.length (shown 66 1 bflat (U "/F#")) = List.length (S_ m)) by (clear Hm; induction F; cbn; congruence).
    cbn in Hm. repeat (destruct Hm as [<-|Hm]; [vm_compute in L; discriminate|]). destruct Hm.
Qed.

(** ** Where it goes wrong *)

(** A flat sign in front of a Roman numeral: the import does not end. *)
Theorem C160_ends_refuted : exists t, t = sign_flat :: U "VII" /\ forall types set_order of_figure top fuel,
  harm_of types set_order (fun u => u) of_figure top fuel (HarmEl false None (Some (U "1")) None t) = Running.
Proof.
  exists (sign_flat :: U "VII"). split; [reflexivity|]. intros.
  apply (C160_leading_never_ends types set_order (fun u => u) of_figure top fuel None (U "1") [] sign_flat (U "VII")).
  - apply u_in_In. reflexivity.
  - reflexivity.
  - intros u ->. split; [reflexivity|]. split; intros c t' Q; [injection Q as <- _; reflexivity|].
    change (sign_flat :: U "VII") with ([sign_flat; 86%N; 73%N] ++ [73%N]) in Q. apply app_inj_tail in Q. destruct Q as (_ & Q). subst c. reflexivity.
Qed.
Print Assumptions C160_ends_refuted.
(** A bass with a flat comes back with the letter b, an added flat degree with a hyphen:
    the other way round than in music21's figures. *)
Theorem C160_figure_back_refuted_bass :
  figure_of_text 1 (printable false (U "C/E-")) = Some (U "C/Eb") /\ U "C/Eb" <> U "C/E-".
Proof. split; [vm_compute; reflexivity|discriminate]. Qed.
Print Assumptions C160_figure_back_refuted_bass.
Theorem C160_figure_back_refuted_degree :
  figure_of_text 1 (printable false (U "C7 add b9")) = Some (U "C7 add -9") /\ U "C7 add -9" <> U "C7 add b9".
Proof. split; [vm_compute; reflexivity|discriminate]. Qed.
Print Assumptions C160_figure_back_refuted_degree.
(** A diminished seventh: neither of the two figures that are tried is the one printed. *)
Theorem C160_figure_back_refuted_diminished : exists f, figure_of_text 1 (printable false (U "Co7")) = Some f
  /\ f = 67%N :: degree_sign :: U "7" /\ u_sub [degree_sign] (U "dim") (u_sub (U "maj6") (U "6") f) = U "Cdim7".
Proof. eexists. split; [vm_compute; reflexivity|]. split; vm_compute; reflexivity. Qed.
Print Assumptions C160_figure_back_refuted_diminished.

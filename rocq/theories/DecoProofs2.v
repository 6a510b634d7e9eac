(** Reading the system decoration: proofs. *)
From Coq Require Import List Arith NArith Bool Ascii String Lia Sorting.Sorted.
From Verif Require Import PyStr PyStrProofs SignifierProofs LyricProofs2 DecoModel DecoProofs.
Import ListNotations.
Local Open Scope list_scope.

Definition no_bracket (c : ascii) : bool := negb (is_open c) && negb (is_close c).
Lemma digit_facts c : is_digit c = true ->
  is_open c = false /\ closes c = None /\ style_of c = None /\ Ascii.eqb c "(" = false /\ Ascii.eqb c ")" = false
  /\ Ascii.eqb c "s" = false.
Proof. destruct c as [[] [] [] [] [] [] [] []]; vm_compute; intro H; try discriminate H; repeat split; reflexivity. Qed.

Lemma nested_text t : Forall (fun c => is_open c = false /\ closes c = None) t -> forall st r, nested st (t ++ r) = nested st r.
Proof.
  induction 1 as [|c t [O C] F IH]; intros st r; [reflexivity|]. cbn [app nested]. rewrite O, C. apply IH.
Qed.
Lemma closing_text t : Forall (fun c => is_open c = false /\ closes c = None) t -> forall d r,
  closing d (t ++ r) = length t + closing d r.
Proof.
  induction 1 as [|c t [O C] F IH]; intros d r; [reflexivity|]. cbn [app closing length]. unfold is_close. rewrite O, C, IH. reflexivity.
Qed.
Lemma staff_text_plain n : Forall (fun c => is_open c = false /\ closes c = None) (staff_text n).
Proof.
  constructor; [split; reflexivity|]. apply Forall_forall. intros c I. destruct (digit_facts c (digits_in _ _ I)) as (A & B & _).
  split; assumption.
Qed.

Lemma nested_render : forall L st r, nested st (render L ++ r) = nested st r.
Proof.
  induction L as [|n l IH|s bar i IHi l IHl]; intros st r; [reflexivity| |].
  - cbn [render]. rewrite <- app_assoc, nested_text by apply staff_text_plain. apply IH.
  - cbn [render]. rewrite <- !app_assoc.
    destruct s, bar; cbn [pre_string post_string open_of close_of S_ app];
      unfold pre_string, post_string; cbn; rewrite ?IHi; cbn; apply IHl.
Qed.
Lemma closing_render : forall L d r, closing d (render L ++ r) = length (render L) + closing d r.
Proof.
  induction L as [|n l IH|s bar i IHi l IHl]; intros d r; [reflexivity| |].
  - cbn [render]. rewrite <- app_assoc, closing_text, IH, app_length by apply staff_text_plain. lia.
  - cbn [render]. rewrite <- !app_assoc, !app_length.
    destruct s, bar; unfold pre_string, post_string; cbn; rewrite ?IHi; cbn; rewrite ?IHl; lia.
Qed.

Definition no_digit (r : str) : Prop := match r with c :: _ => is_digit c = false | [] => True end.
Lemma no_digit_render : forall L r, no_digit r -> no_digit (render L ++ r).
Proof.
  induction L as [|n l IH|s bar i IHi l IHl]; intros r N; [exact N|reflexivity|].
  cbn [render]. rewrite <- !app_assoc.
  destruct s, bar; unfold pre_string, post_string; cbn; try reflexivity; apply IHi; cbn; apply IHl; exact N.
Qed.
(** What comes first after a group. *)
Lemma render_first : forall L, plain_groups L -> L <> LEnd ->
  exists c t, render L = c :: t /\ is_close c = false.
Proof.
  intros [|n l|s bar i l] W NE; [congruence|eexists _, _; split; reflexivity|].
  destruct W as (_ & V & _). cbn [render].
  destruct V as [[->|[->| ->]]| ->]; [eexists _, _; split; reflexivity..|].
  destruct s; eexists _, _; split; reflexivity.
Qed.

Section Walk.
Context (index : N -> option nat) (ix : N -> nat).

Definition mk (gs : list frame) (fin : descs) (sn : list nat) : state := St gs fin sn 0%N false.
Definition add_ids (l : list nat) (f : frame) : frame := Fr (f_sym f) (f_bar f) (f_owned f) (f_ids f ++ l) (f_kids f).
Definition add_all (L : layout) (f : frame) : frame :=
  Fr (f_sym f) (f_bar f) (f_owned f ++ map ix (own_of L)) (f_ids f ++ map ix (staves_of L)) (dapp (f_kids f) (descs_of ix L)).

Lemma walk_cons c r pos opens st : walk index (c :: r) pos opens st =
      match style_of c with
      | Some sy =>
          match r with
          | n :: r' =>
              if Ascii.eqb n "(" && (closing 0 r' + 2 =? closing 0 r)
              then walk index r' (pos + 2) (S pos :: pos :: opens) (push (Fr sy true [] [] DNil) st)
              else walk index r (S pos) (pos :: opens) (push (Fr sy false [] [] DNil) st)
          | [] => walk index r (S pos) (pos :: opens) (push (Fr sy false [] [] DNil) st)
          end
      | None =>
          if Ascii.eqb c "(" then walk index r (S pos) (pos :: opens) (push (Fr NoSym true [] [] DNil) st)
          else if Ascii.eqb c ")" then
            match r, opens with
            | n :: _, p :: q :: _ =>
                if is_close n && negb (Ascii.eqb n ")") && (S q =? p) then walk index r (S pos) (tl opens) st
                else walk index r (S pos) (tl opens) (pop st)
            | _, _ => walk index r (S pos) (tl opens) (pop st)
            end
          else if is_close c then walk index r (S pos) (tl opens) (pop st)
          else if Ascii.eqb c "s" then
            walk index r (S pos) opens (St (groups st) (finished st) (seen st) (value st) true)
          else if is_digit c then
            let v := (value st * 10 + digit_val c)%N in
            if match r with n :: _ => is_digit n | [] => false end
            then walk index r (S pos) opens (St (groups st) (finished st) (seen st) v (is_staff st))
            else
              let st' := St (groups st) (finished st) (seen st) 0%N false in
              walk index r (S pos) opens
                (if is_staff st then match index v with Some i => add_staff i st' | None => st' end else st')
          else walk index r (S pos) opens st
      end.
Proof. reflexivity. Qed.
Lemma walk_digits : forall ds c r pos opens gs fin sn v k, is_digit c = true -> forallb is_digit ds = true -> no_digit r ->
  index (parse_from v (c :: ds)) = Some k ->
  walk index (c :: ds ++ r) pos opens (St gs fin sn v true)
  = walk index r (pos + S (length ds)) opens (add_staff k (mk gs fin sn)).
Proof.
  induction ds as [|d ds IH]; intros c r pos opens gs fin sn v k C D N E; destruct (digit_facts c C) as (O & CL & ST & P1 & P2 & P3).
  - cbn [app]. rewrite walk_cons. rewrite ST, P1, P2, P3, C. unfold is_close. rewrite CL. cbn [value is_staff groups finished seen].
    assert (M : match r with n :: _ => is_digit n | [] => false end = false) by (destruct r; [reflexivity|exact N]).
    rewrite M. cbn in E. rewrite (N.mul_comm v 10). cbn in *. rewrite E.
    replace (pos + 1) with (S pos) by lia. reflexivity.
  - cbn [forallb] in D. apply andb_prop in D. destruct D as [D1 D2].
    cbn [app]. rewrite walk_cons. rewrite ST, P1, P2, P3, C. unfold is_close. rewrite CL, D1. cbn [value is_staff groups finished seen].
    replace (pos + S (length (d :: ds))) with (S pos + S (length ds)) by (cbn; lia).
    apply (IH d r (S pos) opens gs fin sn _ k D1 D2 N). rewrite (N.mul_comm v 10). exact E.
Qed.
Lemma walk_staff n r pos opens gs fin sn : no_digit r -> index n = Some (ix n) ->
  walk index (staff_text n ++ r) pos opens (mk gs fin sn)
  = walk index r (pos + length (staff_text n)) opens (add_staff (ix n) (mk gs fin sn)).
Proof.
  intros N E. unfold staff_text. destruct (show_N_cons n) as (c & ds & SH & C). pose proof (show_N_digits n) as D.
  rewrite SH in *. cbn [forallb] in D. apply andb_prop in D.
  assert (P : parse_from 0 (c :: ds) = n) by (rewrite <- SH, <- parse_N_from; apply parse_show_N).
  cbn [app length]. replace (pos + S (S (length ds))) with (S pos + S (length ds)) by lia.
  transitivity (walk index (c :: ds ++ r) (1 + pos) opens (St gs fin sn 0%N true)); [reflexivity|].
  apply walk_digits; [exact C|exact (proj2 D)|exact N|]. rewrite P. exact E.
Qed.

Definition ends_group (n : ascii) : bool := is_close n && negb (Ascii.eqb n ")").
(** A bracket that closes only bar lines is not taken for one with a symbol. *)
Definition apart (L : layout) (r : str) (pos : nat) (opens : list nat) : Prop :=
  only_bars L -> match r, opens with n :: _, q :: _ => ends_group n && (S q =? pos) = false | _, _ => True end.
Definition inside_ok (pos : nat) (opens : list nat) : Prop := match opens with q :: _ => q < pos | [] => True end.

Definition walks (L : layout) : Prop := forall r pos opens f gs fin sn,
  plain_groups L -> no_digit r -> (forall n, In n (staves_of L) -> index n = Some (ix n)) ->
  apart L r pos opens -> inside_ok pos opens ->
  walk index (render L ++ r) pos opens (mk (f :: gs) fin sn)
  = walk index r (pos + length (render L)) opens
      (mk (add_all L f :: map (add_ids (map ix (staves_of L))) gs) fin (sn ++ map ix (staves_of L))).

Lemma walk_group s bar i : walks i -> forall r pos opens gs fin sn,
  has_sign s \/ bar = true -> (bar = false -> ~ only_bars i) -> plain_groups i -> no_digit r ->
  (forall n, In n (staves_of i) -> index n = Some (ix n)) ->
  (~ has_sign s -> match r, opens with n :: _, q :: _ => ends_group n && (S q =? pos) = false | _, _ => True end) ->
  walk index (pre_string s bar ++ render i ++ post_string s bar ++ r) pos opens (mk gs fin sn)
  = walk index r (pos + length (pre_string s bar ++ render i ++ post_string s bar)) opens
      (pop (mk (add_all i (Fr (sign_read s) bar [] [] DNil) :: map (add_ids (map ix (staves_of i))) gs) fin
               (sn ++ map ix (staves_of i)))).
Proof.
  intros Wk r pos opens gs fin sn V NM Wi N IX AP.
  assert (HSB : (exists o c, open_of s = [o] /\ close_of s = [c] /\ style_of o = Some (sign_read s) /\ is_digit c = false
                  /\ is_open o = true /\ is_open c = false
                  /\ style_of c = None /\ Ascii.eqb c "(" = false /\ Ascii.eqb c ")" = false /\ is_close c = true /\ has_sign s)
                \/ (open_of s = [] /\ close_of s = [] /\ sign_read s = NoSym /\ ~ has_sign s)).
  { unfold has_sign. destruct s; [left; eexists _, _; repeat (split; [reflexivity|]); tauto..|right|right];
      repeat (split; [reflexivity|]); intros [H|[H|H]]; discriminate H. }
  destruct HSB as [(o & c & Eo & Ec & St & Dc & Oo & Oc & Sc & C1 & C2 & Cc & HS)|(Eo & Ec & Sr & NS)].
  - unfold pre_string, post_string. rewrite Eo, Ec. destruct bar; cbn [S_ list_ascii_of_string app].
    + rewrite walk_cons. rewrite St. cbn [Ascii.eqb Bool.eqb andb].
      assert (CL : closing 0 (render i ++ ")"%char :: c :: r) + 2 =? closing 0 ("("%char :: render i ++ ")"%char :: c :: r) = true).
      { apply Nat.eqb_eq. cbn [closing is_open S_ list_ascii_of_string existsb Ascii.eqb Bool.eqb orb].
        change (S (closing 1 (render i ++ ")"%char :: c :: r))) with (S (closing 1 (render i ++ ")"%char :: c :: r))).
        rewrite !closing_render.
        assert (A : closing 0 (")"%char :: c :: r) = 0) by reflexivity.
        assert (B : closing 1 (")"%char :: c :: r) = 1).
        { change (closing 1 (")"%char :: c :: r)) with (S (closing 0 (c :: r))). cbn [closing]. rewrite Oc, Cc. reflexivity. }
        rewrite A, B. lia. }
      change (Ascii.eqb "(" "(") with true.
      rewrite CL. cbn [andb]. change (push (Fr (sign_read s) true [] [] DNil) (mk gs fin sn)) with (mk (Fr (sign_read s) true [] [] DNil :: gs) fin sn).
      rewrite (Wk (")"%char :: c :: r) (pos + 2) (S pos :: pos :: opens)); [|exact Wi|reflexivity|exact IX|intros _; reflexivity|cbn; lia].
      set (X := mk _ _ _).
      transitivity (walk index (c :: r) (S (pos + 2 + length (render i))) (pos :: opens) X).
      { rewrite walk_cons. change (style_of ")") with (@None symbol). cbn [tl].
        change (Ascii.eqb ")" "(") with false. change (Ascii.eqb ")" ")") with true. cbn match.
        rewrite Cc, C2, Nat.eqb_refl. reflexivity. }
      rewrite walk_cons. rewrite Sc, C1, C2, Cc. cbn [tl]. f_equal. cbn [length app]. rewrite !app_length. cbn [length app]. lia.
    + rewrite walk_cons. rewrite St.
      assert (NB : forall n r', render i ++ c :: r = n :: r' -> Ascii.eqb n "(" && (closing 0 r' + 2 =? closing 0 (render i ++ c :: r)) = false).
      { intros n r' E. destruct (Ascii.eqb n "(") eqn:En; [|reflexivity]. apply Ascii.eqb_eq in En. subst n. cbn [andb].
        apply Nat.eqb_neq. rewrite closing_render.
        assert (CR : closing 0 (c :: r) = 0) by (cbn [closing]; rewrite Oc, Cc; reflexivity). rewrite CR.
        destruct i as [|m l|s' b' i' l].
        - cbn in E. injection E as E _. subst c. discriminate C1.
        - discriminate E.
        - cbn [render] in *. destruct Wi as (_ & V' & _ & _ & Wl).
          assert (SB : open_of s' = [] /\ close_of s' = [] /\ b' = true /\ ~ has_sign s').
          { unfold has_sign in *. destruct s', b'; unfold pre_string in E; cbn in E; try discriminate E;
              try (repeat (split; [reflexivity|]); intros [H|[H|H]]; discriminate H);
              exfalso; destruct V' as [[H|[H|H]]|H]; discriminate H. }
          destruct SB as (Eo' & Ec' & -> & NS'). unfold pre_string, post_string in *. rewrite Eo', Ec' in *.
          cbn [app S_ list_ascii_of_string] in *. injection E as E. subst r'. rewrite <- app_assoc, closing_render.
          cbn [app length]. assert (Z : closing 0 (")"%char :: render l ++ c :: r) = 0) by reflexivity. rewrite Z.
          rewrite app_length. cbn [length].
          destruct l as [|m l|s2 b2 i2 l2].
          + exfalso. apply (NM eq_refl). exists s', i'. split; [reflexivity|exact NS'].
          + destruct (render_first (LStaff m l) Wl) as (x & t & R & _); [discriminate|]. rewrite R. cbn. lia.
          + destruct (render_first (LGroup s2 b2 i2 l2) Wl) as (x & t & R & _); [discriminate|]. rewrite R. cbn. lia. }
      assert (ST : walk index (render i ++ c :: r) (S pos) (pos :: opens) (push (Fr (sign_read s) false [] [] DNil) (mk gs fin sn))
                   = walk index r (pos + length (o :: render i ++ [c])) opens
      (pop (mk (add_all i (Fr (sign_read s) false [] [] DNil) :: map (add_ids (map ix (staves_of i))) gs) fin
               (sn ++ map ix (staves_of i))))).
      { change (push (Fr (sign_read s) false [] [] DNil) (mk gs fin sn)) with (mk (Fr (sign_read s) false [] [] DNil :: gs) fin sn).
        rewrite (Wk (c :: r) (S pos) (pos :: opens)); [|exact Wi|exact Dc|exact IX| |cbn; lia].
        - set (X := mk _ _ _). rewrite walk_cons. rewrite Sc, C1, C2, Cc. cbn [tl]. f_equal. cbn. rewrite app_length. cbn. lia.
        - intro OB. exfalso. exact (NM eq_refl OB). }
      destruct (render i ++ c :: r) as [|n r'] eqn:E; [exact ST|].
      rewrite (NB n r' eq_refl). exact ST.
  - destruct V as [V| ->]; [contradiction|]. unfold pre_string, post_string. rewrite Eo, Ec. cbn [S_ list_ascii_of_string app].
    transitivity (walk index (render i ++ ")"%char :: r) (S pos) (pos :: opens) (mk (Fr NoSym true [] [] DNil :: gs) fin sn)); [reflexivity|].
    rewrite (Wk (")"%char :: r) (S pos) (pos :: opens)); [|exact Wi|reflexivity|exact IX|intros _; reflexivity|cbn; lia].
    rewrite Sr. set (X := mk _ _ _).
    assert (P : pos + length ("("%char :: render i ++ [")"%char]) = S (S pos + length (render i))) by (cbn; rewrite app_length; cbn; lia).
    rewrite P. rewrite walk_cons. change (style_of ")") with (@None symbol).
    change (Ascii.eqb ")" "(") with false. change (Ascii.eqb ")" ")") with true. cbn match. cbn [tl].
    specialize (AP NS). destruct r as [|n r]; [reflexivity|]. destruct opens as [|q opens]; [reflexivity|].
    unfold ends_group in AP. rewrite AP. reflexivity.
Qed.

Lemma dapp_assoc a b c : dapp (dapp a b) c = dapp a (dapp b c).
Proof. induction a as [|s bar o i k _ r IH]; [reflexivity|]. cbn. rewrite IH. reflexivity. Qed.
Lemma dapp_nil a : dapp a DNil = a.
Proof. induction a as [|s bar o i k _ r IH]; [reflexivity|]. cbn. rewrite IH. reflexivity. Qed.
Lemma add_ids_nil gs : map (add_ids []) gs = gs.
Proof. induction gs as [|[s b o i k] gs IH]; [reflexivity|]. cbn. rewrite IH. unfold add_ids. cbn. rewrite app_nil_r. reflexivity. Qed.
Lemma add_ids_app a b gs : map (add_ids b) (map (add_ids a) gs) = map (add_ids (a ++ b)) gs.
Proof. rewrite map_map. apply map_ext. intros [s bb o i k]. unfold add_ids. cbn. rewrite app_assoc. reflexivity. Qed.

Theorem walk_render : forall L, walks L.
Proof.
  induction L as [|n l IH|s bar i IHi l IHl]; intros r pos opens f gs fin sn W N IX AP IN.
  - cbn [render app length staves_of map]. rewrite Nat.add_0_r, add_ids_nil, app_nil_r.
    unfold add_all. cbn. rewrite !app_nil_r, dapp_nil. destruct f; reflexivity.
  - cbn [render]. rewrite <- app_assoc, walk_staff; [|apply no_digit_render; exact N|apply IX; left; reflexivity].
    unfold add_staff. cbn [groups mk map finished seen value is_staff].
    transitivity (walk index (render l ++ r) (pos + length (staff_text n)) opens
      (mk (add_owned (ix n) (add_id (ix n) f) :: map (add_id (ix n)) gs) fin (sn ++ [ix n]))); [reflexivity|].
    rewrite IH; [|exact W|exact N|intros m I; apply IX; right; exact I| |].
    + rewrite app_length. f_equal; [lia|]. cbn [staves_of map]. f_equal.
      * f_equal; [unfold add_all, add_owned, add_id; cbn; rewrite <- !app_assoc; reflexivity|].
        change (add_id (ix n)) with (add_ids [ix n]). rewrite add_ids_app. reflexivity.
      * rewrite <- app_assoc. reflexivity.
    + intros _. destruct r as [|x r]; [exact Logic.I|]. destruct opens as [|q opens]; [exact Logic.I|]. cbn in IN.
      apply andb_false_iff. right. apply Nat.eqb_neq. cbn. lia.
    + destruct opens as [|q opens]; [exact Logic.I|]. cbn in *. lia.
  - destruct W as (NE & V & NM & Wi & Wl). cbn [render].
    replace ((pre_string s bar ++ render i ++ post_string s bar ++ render l) ++ r)
      with (pre_string s bar ++ render i ++ post_string s bar ++ (render l ++ r)) by (rewrite <- !app_assoc; reflexivity).
    rewrite (walk_group s bar i IHi); [|exact V|exact NM|exact Wi|apply no_digit_render; exact N| |].
    + cbn [map pop mk groups finished seen value is_staff].
      set (P := pos + length (pre_string s bar ++ render i ++ post_string s bar)).
      set (F := Fr _ _ _ _ _).
      transitivity (walk index (render l ++ r) P opens (mk (F :: map (add_ids (map ix (staves_of i))) gs) fin (sn ++ map ix (staves_of i))));
        [reflexivity|].
      assert (PP : pos < P).
      { subst P. rewrite !app_length. destruct V as [[->|[->| ->]]| ->]; try (destruct bar; cbn; lia). destruct s; cbn; lia. }
      rewrite IHl; [|exact Wl|exact N|intros m I; apply IX; cbn; apply in_or_app; right; exact I| |].
      * f_equal; [subst P; rewrite !app_length; lia|]. cbn [staves_of]. rewrite map_app. f_equal.
        -- f_equal; [|apply add_ids_app]. subst F. unfold add_all, add_ids, close_frame. cbn.
           rewrite <- !app_assoc. rewrite dapp_assoc, map_app. reflexivity.
        -- rewrite <- app_assoc. reflexivity.
      * intros _. destruct r as [|x r]; [exact Logic.I|]. destruct opens as [|q opens]; [exact Logic.I|]. cbn in IN.
        apply andb_false_iff. right. apply Nat.eqb_neq. lia.
      * destruct opens as [|q opens]; [exact Logic.I|]. cbn in *. lia.
    + intros m I. apply IX. cbn. apply in_or_app. left. exact I.
    + intro NS. destruct l as [|m l|s2 b2 i2 l2].
      * cbn [render app]. apply AP. exists s, i. split; [|exact NS]. destruct V as [V| ->]; [contradiction|reflexivity].
      * destruct opens; [exact Logic.I|]. reflexivity.
      * destruct (render_first (LGroup s2 b2 i2 l2) Wl) as (x & t & R & C); [discriminate|]. rewrite R. cbn [app].
        destruct opens; [exact Logic.I|]. unfold ends_group. rewrite C. reflexivity.
Qed.
End Walk.

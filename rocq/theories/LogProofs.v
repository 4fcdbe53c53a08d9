(** Proofs about LogModel.v *)
From Coq Require Import Bool Arith Ascii String List Lia.
From Verif Require Import Flt Py LogModel.
Import ListNotations.
Local Open Scope nat_scope.

(** ** tokens of a line, stated without the parser *)
Inductive tok : Type :=
| TPar (n v st : text) (gt : bool)   (* name=value, stars, perhaps a closing > *)
| TWord (w : text).                  (* anything else *)
Definition all (p : ascii -> bool) (s : text) : Prop := Forall (fun c => p c = true) s.
Definition none (p : ascii -> bool) (s : text) : Prop := Forall (fun c => p c = false) s.
(** names: a letter, then letters, digits, underscores *)
Definition ok_name (n : text) : Prop := exists c r, n = c :: r /\ is_letter c = true /\ all is_wordc r.
(** numbers: an optional sign, a digit, then digits, points, e, E, signs *)
Definition ok_val (v : text) : Prop :=
  exists sg d r, v = sg ++ d :: r /\ (sg = [] \/ exists c, sg = [c] /\ is_sign c = true) /\ is_dig d = true /\ all is_num r.
Definition bad_val (v : text) : Prop :=
  match v with
  | c :: r => if is_sign c then match r with d :: _ => is_dig d = false | [] => True end else is_dig c = false
  | [] => True
  end.
(** words: no blank; no = at all, or not a number after the =, or no letter in
    front *)
Definition ok_word (w : text) : Prop :=
  w <> [] /\ none is_space w /\
  (~ In "="%char w \/ (exists n v, w = n ++ "="%char :: v /\ all is_wordc n /\ bad_val v /\ v <> [])
   \/ (exists c r, w = c :: r /\ is_letter c = false)).
Definition ok_tok (t : tok) : Prop :=
  match t with
  | TPar n v st _ => ok_name n /\ ok_val v /\ all is_star st
  | TWord w => ok_word w
  end.
Definition tok_text (t : tok) : text :=
  match t with
  | TPar n v st gt => n ++ txt "=" ++ v ++ st ++ (if gt then txt ">" else [])
  | TWord w => w
  end.
Definition params (ts : list tok) : list found :=
  flat_map (fun t => match t with TPar n v st _ => [(n, (v, st))] | TWord _ => [] end) ts.
Definition blank_start (s : text) : Prop := s = [] \/ exists c r, s = c :: r /\ is_space c = true.
(** a line made of the tokens, separated by white space *)
Inductive line_of : list tok -> text -> Prop :=
| lo_nil : forall trail, all is_space trail -> line_of [] trail
| lo_cons : forall gap t ts rest, all is_space gap -> ok_tok t -> line_of ts rest -> blank_start rest ->
    line_of (t :: ts) (gap ++ tok_text t ++ rest).

(** ** characters *)
Ltac chr := intros [[] [] [] [] [] [] [] []]; vm_compute; congruence.
Lemma eq_not_wordc : is_wordc "=" = false. Proof. reflexivity. Qed.
Lemma letter_wordc : forall c, is_letter c = true -> is_wordc c = true.
Proof. intros c H. unfold is_wordc. now rewrite H. Qed.
Lemma letter_not_space : forall c, is_letter c = true -> is_space c = false. Proof. chr. Qed.
Lemma space_not_letter : forall c, is_space c = true -> is_letter c = false. Proof. chr. Qed.
Lemma space_not_wordc : forall c, is_space c = true -> is_wordc c = false. Proof. chr. Qed.
Lemma wordc_not_space : forall c, is_wordc c = true -> is_space c = false. Proof. chr. Qed.
Lemma star_not_num : forall c, is_star c = true -> is_num c = false. Proof. chr. Qed.
Lemma space_not_num : forall c, is_space c = true -> is_num c = false. Proof. chr. Qed.
Lemma space_not_star : forall c, is_space c = true -> is_star c = false. Proof. chr. Qed.
Lemma dig_num : forall c, is_dig c = true -> is_num c = true. Proof. chr. Qed.
Lemma dig_not_sign : forall c, is_dig c = true -> is_sign c = false. Proof. chr. Qed.
Lemma num_not_space : forall c, is_num c = true -> is_space c = false. Proof. chr. Qed.
Lemma sign_not_space : forall c, is_sign c = true -> is_space c = false. Proof. chr. Qed.
Lemma star_not_space : forall c, is_star c = true -> is_space c = false. Proof. chr. Qed.
Lemma space_not_eq : forall c, is_space c = true -> Ascii.eqb c "=" = false. Proof. chr. Qed.

Lemma span_app : forall p a b, all p a -> b = [] \/ (exists c r, b = c :: r /\ p c = false) -> span p (a ++ b) = (a, b).
Proof.
  intros p a b A B. induction A as [|c a Pc A IH]; simpl.
  - destruct B as [->|(c & r & -> & H)]; simpl; [reflexivity|]. now rewrite H.
  - rewrite Pc, IH. reflexivity.
Qed.
Lemma span_length : forall p s a b, span p s = (a, b) -> s = a ++ b.
Proof.
  induction s as [|c s IH]; simpl; intros a b H; [injection H as <- <-; reflexivity|].
  destruct (p c); [destruct (span p s) as [a' b'] eqn:E; injection H as <- <-; simpl; f_equal; auto|injection H as <- <-; reflexivity].
Qed.

(** ** termination *)
Lemma param_at_shorter : forall s n v st r, param_at s = Some (n, v, st, r) -> length r < length s.
Proof.
  intros s n v st r H. unfold param_at in H. destruct s as [|c s]; [discriminate|]. destruct (is_letter c) eqn:Lc; [|discriminate].
  destruct (span is_wordc (c :: s)) as [nm r1] eqn:E1. apply span_length in E1. apply (f_equal (@length ascii)) in E1. rewrite app_length in E1.
  destruct r1 as [|e r1]; [discriminate|]. destruct (Ascii.eqb e "="); [|discriminate].
  destruct (match r1 with [] => _ | _ => _ end) as [sg r2] eqn:E2.
  assert (L2 : length r2 <= length r1).
  { destruct r1 as [|c' r1]; [injection E2 as <- <-; auto|]. destruct (is_sign c'); injection E2 as <- <-; simpl; lia. }
  destruct r2 as [|d r2]; [discriminate|]. destruct (is_dig d); [|discriminate].
  destruct (span is_num (d :: r2)) as [nu r3] eqn:E3. apply span_length in E3. apply (f_equal (@length ascii)) in E3. rewrite app_length in E3.
  destruct (span is_star r3) as [ss r4] eqn:E4. apply span_length in E4. apply (f_equal (@length ascii)) in E4. rewrite app_length in E4.
  simpl in *. destruct r4 as [|x r4]; [injection H as <- <- <- <-; simpl; lia|]. destruct (_ || _); [|discriminate]. injection H as <- <- <- <-.
  simpl in *. lia.
Qed.
Lemma after_space_shorter : forall s n v st r, after_space s = Some (n, v, st, r) -> length r < length s.
Proof.
  induction s as [|c s IH]; simpl; intros n v st r H; [discriminate|]. destruct (is_space c).
  - destruct (param_at s) as [[[[? ?] ?] ?]|] eqn:E; [injection H as -> -> -> ->; apply param_at_shorter in E; lia|]. apply IH in H. lia.
  - apply IH in H. lia.
Qed.
Lemma search_shorter : forall s n v st r, param_search s = Some (n, v, st, r) -> length r < length s.
Proof.
  intros s n v st r H. unfold param_search in H. destruct (param_at s) as [[[[? ?] ?] ?]|] eqn:E.
  - injection H as -> -> -> ->. now apply param_at_shorter in E.
  - now apply after_space_shorter in H.
Qed.
Lemma scan_total : forall fuel s, length s < fuel -> exists l, scan fuel s = Some l.
Proof.
  induction fuel as [|fuel IH]; intros s L; [lia|]. cbn [scan]. destruct (param_search s) as [[[[n v] st] r]|] eqn:E; [|eauto].
  apply search_shorter in E. destruct (IH r) as [l ->]; [lia|]. eauto.
Qed.

(** ** one token *)
Lemma all_app : forall p a b, all p (a ++ b) <-> all p a /\ all p b.
Proof. intros. apply Forall_app. Qed.
Lemma ok_tok_head : forall t, ok_tok t -> exists c r, tok_text t = c :: r /\ is_space c = false.
Proof.
  intros [n v st gt|w] O; cbn [ok_tok tok_text] in *.
  - destruct O as ((c & r & -> & L & _) & _). exists c. eexists. split; [reflexivity|]. now apply letter_not_space.
  - destruct O as (N & S & _). destruct w as [|c w]; [congruence|]. inversion S; subst. eauto.
Qed.
Lemma param_at_nonletter : forall c s, is_letter c = false -> param_at (c :: s) = None.
Proof. intros c s H. unfold param_at. now rewrite H. Qed.
Lemma param_at_spaces : forall gap s, all is_space gap -> gap <> [] -> param_at (gap ++ s) = None.
Proof.
  intros gap s A N. destruct gap as [|c gap]; [congruence|]. inversion A; subst. cbn [app]. apply param_at_nonletter. now apply space_not_letter.
Qed.
Lemma param_at_par : forall n v st (gt : bool) rest, ok_tok (TPar n v st gt) -> blank_start rest ->
  param_at (tok_text (TPar n v st gt) ++ rest) = Some (n, v, st, if gt then rest else tl rest).
Proof.
  intros n v st gt rest ((c & r & -> & L & W) & (sg & d & q & -> & SG & D & NU) & ST) B. cbn [tok_text].
  rewrite <- !app_assoc. remember ((c :: r) ++ txt "=" ++ sg ++ (d :: q) ++ st ++ (if gt then txt ">" else []) ++ rest) as s eqn:Es.
  unfold param_at. rewrite Es at 1. cbn [app]. rewrite L. rewrite Es. clear Es s.
  rewrite (span_app is_wordc (c :: r)); [|constructor; auto; now apply letter_wordc|right; eexists _, _; split; reflexivity].
  cbn [txt list_ascii_of_string app]. cbn [Ascii.eqb Bool.eqb].
  set (E := if gt then [">"%char] else []).
  assert (F : span is_num (d :: q ++ st ++ E ++ rest) = (d :: q, st ++ E ++ rest) /\ span is_star (st ++ E ++ rest) = (st, E ++ rest)).
  { split.
    - apply (span_app is_num (d :: q)); [constructor; auto; now apply dig_num|]. destruct st as [|x st].
      + cbn [app]. unfold E. destruct gt; [right; eexists _, _; split; reflexivity|]. cbn [app]. destruct B as [->|(x & r' & -> & S)]; [now left|right].
        exists x, r'. split; auto. now apply space_not_num.
      + right. exists x. eexists. split; [reflexivity|]. inversion ST; subst. now apply star_not_num.
    - apply span_app; auto. unfold E. destruct gt; [right; eexists _, _; split; reflexivity|]. cbn [app]. destruct B as [->|(x & r' & -> & S)]; [now left|right].
      exists x, r'. split; auto. now apply space_not_star. }
  destruct F as (F1 & F2).
  assert (G : match E ++ rest with [] => Some (c :: r, sg ++ d :: q, st, []) | c0 :: r0 => if is_space c0 || Ascii.eqb c0 ">" then Some (c :: r, sg ++ d :: q, st, r0) else None end
    = Some (c :: r, sg ++ d :: q, st, if gt then rest else tl rest)).
  { unfold E. destruct gt; cbn [app]; [reflexivity|]. destruct B as [->|(x & r' & -> & S)]; [reflexivity|]. rewrite S. reflexivity. }
  destruct SG as [->|(x & -> & Sx)]; cbn [app].
  - rewrite (dig_not_sign d D). rewrite D. rewrite F1. rewrite F2. exact G.
  - rewrite Sx. rewrite D. rewrite F1, F2. exact G.
Qed.
Lemma param_at_word : forall w rest, ok_word w -> blank_start rest -> param_at (w ++ rest) = None.
Proof.
  intros w rest (N & S & K) B. destruct w as [|c w]; [congruence|]. cbn [app].
  destruct (is_letter c) eqn:L; [|now apply param_at_nonletter]. unfold param_at. rewrite L.
  destruct K as [K|[(n & v & E & W & BV & NV)|(c' & r' & E & L')]].
  - change (c :: w ++ rest) with ((c :: w) ++ rest). destruct (span is_wordc ((c :: w) ++ rest)) as [nm r1] eqn:E1.
    assert (X : forall e r2, r1 = e :: r2 -> Ascii.eqb e "=" = false).
    { intros e r2 ->. destruct (Ascii.eqb_spec e "="); auto. subst e. exfalso. apply span_length in E1 as E2.
      assert (A : all is_wordc nm). { clear - E1. revert nm E1. generalize ((c :: w) ++ rest) as t. induction t as [|x t IH]; simpl; intros nm H; [discriminate|].
        destruct (is_wordc x) eqn:Wx; [|injection H as <- _ _; constructor]. destruct (span is_wordc t) as [a b] eqn:E. injection H as <- ->. constructor; auto. apply IH. reflexivity. }
      (* the '=' would be in w or be the first of rest *)
      assert (D : In "="%char (c :: w) \/ exists m, nm = (c :: w) ++ m /\ m ++ "="%char :: r2 = rest).
      { clear - E2. revert nm E2. generalize (c :: w) as u. induction u as [|a u IH]; intros nm E.
        - right. exists nm. split; auto.
        - destruct nm as [|b nm]; [cbn in E; injection E as -> _; left; now left|]. cbn in E. injection E as -> E.
          destruct (IH nm E) as [I|(m & -> & M)]; [left; now right|right; exists m; split; auto]. }
      destruct D as [D|(m & -> & M)]; [auto|]. apply all_app in A. destruct A as [_ A]. destruct B as [->|(x & r' & -> & Sp)].
      - destruct m; discriminate.
      - destruct m as [|y m]; cbn in M; [injection M as <- _; discriminate|]. injection M as -> _. inversion A; subst. apply wordc_not_space in H1. congruence. }
    destruct r1 as [|e r1]; auto. now rewrite (X e r1 eq_refl).
  - rewrite app_comm_cons, E, <- app_assoc. cbn [app]. rewrite (span_app is_wordc n); auto; [|right; eexists _, _; split; reflexivity].
    cbn [Ascii.eqb Bool.eqb]. destruct v as [|x v]; [congruence|]. cbn [bad_val app] in *.
    destruct (is_sign x) eqn:Sx.
    + destruct v as [|d v]; cbn [app].
      * destruct B as [->|(y & r' & -> & Sp)]; auto. destruct (is_dig y) eqn:Dy; auto. apply dig_num, num_not_space in Dy. congruence.
      * now rewrite BV.
    + now rewrite BV.
  - injection E as <- _. congruence.
Qed.
Lemma after_nospace : forall w s, none is_space w -> after_space (w ++ s) = after_space s.
Proof. intros w s H. induction H as [|c w Hc H IH]; cbn [app after_space]; auto. now rewrite Hc. Qed.

(** ** lines of tokens *)
Lemma after_spaces_only : forall s, all is_space s -> after_space s = None.
Proof.
  intros s H. induction H as [|c s Hc H IH]; cbn [after_space]; auto. rewrite Hc, IH. destruct s as [|d s]; auto.
  inversion H; subst. rewrite param_at_nonletter; auto. now apply space_not_letter.
Qed.
Lemma line_tail : forall ts s, line_of ts s -> blank_start s -> line_of ts (tl s).
Proof.
  intros ts s L B. destruct L as [trail A|gap t ts rest A O L Br].
  - constructor. destruct A; simpl; auto. constructor.
  - destruct gap as [|c gap].
    + exfalso. destruct (ok_tok_head t O) as (c & r & E & S). cbn [app] in B. rewrite E in B. destruct B as [B|(c' & r' & B & S')]; [discriminate|].
      injection B as <- _. congruence.
    + cbn [app tl]. inversion A; subst. now constructor.
Qed.
Definition hit (ts : list tok) (s : text) (m : option pmatch) : Prop :=
  (params ts = [] /\ m = None) \/
  (exists n v st r ts', params ts = (n, (v, st)) :: params ts' /\ m = Some (n, v, st, r) /\ line_of ts' r).
Lemma after_space_hit : forall ts s, line_of ts s -> blank_start s -> hit ts s (after_space s).
Proof.
  intros ts s L. induction L as [trail A|gap t ts rest A O L IH Br]; intros B.
  - left. split; auto. now apply after_spaces_only.
  - assert (K : hit (t :: ts) (gap ++ tok_text t ++ rest) (match param_at (tok_text t ++ rest) with Some m => Some m | None => after_space (tok_text t ++ rest) end)).
    { destruct t as [n v st gt|w].
      - rewrite param_at_par by auto. right. exists n, v, st. eexists. exists ts. split; [reflexivity|]. split; [reflexivity|]. destruct gt; auto. now apply line_tail.
      - cbn [tok_text ok_tok] in *. rewrite param_at_word by auto. rewrite after_nospace by apply O. destruct (IH Br) as [[H1 H2]|(n & v & st & r & ts' & H1 & H2 & H3)].
        + left. split; auto.
        + right. exists n, v, st, r, ts'. auto. }
    destruct gap as [|c gap].
    { exfalso. destruct (ok_tok_head t O) as (c & r & E & S). cbn [app] in B. rewrite E in B. destruct B as [B|(c' & r' & B & S')]; [discriminate|].
      injection B as <- _. congruence. }
    assert (G : after_space ((c :: gap) ++ tok_text t ++ rest) = match param_at (tok_text t ++ rest) with Some m => Some m | None => after_space (tok_text t ++ rest) end).
    { clear - A. revert c A. induction gap as [|d gap IH]; intros c A; inversion A; subst; cbn [app after_space]; rewrite H1; auto.
      change (d :: gap ++ tok_text t ++ rest) with ((d :: gap) ++ tok_text t ++ rest). rewrite param_at_spaces; [|auto|discriminate].
      apply IH; auto. }
    rewrite G. exact K.
Qed.
Lemma search_hit : forall ts s, line_of ts s -> hit ts s (param_search s).
Proof.
  intros ts s L. unfold param_search. destruct L as [trail A|gap t ts rest A O L Br].
  - assert (P : param_at trail = None).
    { destruct trail as [|c tr]; auto. inversion A; subst. apply param_at_nonletter. now apply space_not_letter. }
    rewrite P. left. split; auto. now apply after_spaces_only.
  - destruct gap as [|c gap].
    + cbn [app]. destruct t as [n v st gt|w].
      * rewrite param_at_par by auto. right. exists n, v, st. eexists. exists ts. split; [reflexivity|]. split; [reflexivity|]. destruct gt; auto. now apply line_tail.
      * cbn [tok_text ok_tok] in *. rewrite param_at_word by auto. rewrite after_nospace by apply O.
        destruct (after_space_hit _ _ L Br) as [[H1 H2]|(n & v & st & r & ts' & H1 & H2 & H3)].
        -- left. split; auto.
        -- right. exists n, v, st, r, ts'. auto.
    + rewrite param_at_spaces; [|auto|discriminate]. apply after_space_hit; [now constructor|]. right. inversion A; subst. cbn [app]. eauto.
Qed.
Lemma scan_spec : forall fuel ts s, line_of ts s -> length s < fuel -> scan fuel s = Some (params ts).
Proof.
  induction fuel as [|fuel IH]; intros ts s L F; [lia|]. cbn [scan].
  destruct (search_hit ts s L) as [[H1 H2]|(n & v & st & r & ts' & H1 & H2 & H3)]; rewrite H1, H2; auto.
  rewrite (IH ts' r H3); auto. apply search_shorter in H2. lia.
Qed.
Lemma scan_line_spec : forall ts s, line_of ts s -> scan_line s = Some (params ts).
Proof. intros. apply scan_spec; auto. Qed.

(** ** strip *)
Lemma lstrip_line : forall ts s, line_of ts s -> line_of ts (lstrip s).
Proof.
  intros ts s. induction s as [|c s IH]; intros L; cbn [lstrip]; auto. destruct (is_space c) eqn:S; auto.
  apply IH. change s with (tl (c :: s)). apply line_tail; auto. right. eauto.
Qed.
Lemma tok_last : forall t, ok_tok t -> exists r c, tok_text t = r ++ [c] /\ is_space c = false.
Proof.
  intros t O. assert (N : none is_space (tok_text t)).
  { destruct t as [n v st gt|w]; cbn [ok_tok tok_text] in *; [|apply O]. destruct O as ((c & r & -> & L & W) & (sg & d & q & -> & SG & D & NU) & ST).
    unfold none. rewrite !Forall_app. split; [constructor; [now apply letter_not_space|eapply Forall_impl; [|exact W]; apply wordc_not_space]|].
    split; [now repeat constructor|]. split.
    - split; [destruct SG as [->|(x & -> & Sx)]; [constructor|constructor; [now apply sign_not_space|constructor]]|].
      constructor; [now apply num_not_space, dig_num|eapply Forall_impl; [|exact NU]; apply num_not_space].
    - split; [eapply Forall_impl; [|exact ST]; apply star_not_space|]. destruct gt; repeat constructor. }
  destruct (ok_tok_head t O) as (c & r & E & _). destruct (exists_last (l := tok_text t)) as (l & x & E2); [rewrite E; discriminate|].
  exists l, x. split; auto. rewrite E2 in N. apply Forall_app in N. destruct N as [_ N]. now inversion N.
Qed.
Lemma snoc_line : forall ts s c, line_of ts (s ++ [c]) -> is_space c = true -> line_of ts s.
Proof.
  intros ts s c L S. remember (s ++ [c]) as u eqn:E. revert s E. induction L as [trail A|gap t ts rest A O L IH Br]; intros s E.
  - constructor. subst. apply all_app in A. tauto.
  - destruct rest as [|x rest] using rev_ind; [|clear IHrest].
    + exfalso. destruct (tok_last t O) as (r & y & E2 & S2). rewrite E2, app_nil_r, app_assoc in E. apply app_inj_tail in E. destruct E as [_ ->]. congruence.
    + rewrite !app_assoc in E. apply app_inj_tail in E. destruct E as [<- ->]. rewrite <- app_assoc. constructor; auto.
      destruct rest as [|y rest]; [now left|]. right. destruct Br as [Br|(z & q & Br & Sz)]; [destruct rest; discriminate|].
      cbn [app] in Br. injection Br as -> _. eauto.
Qed.
Lemma rstrip_line : forall ts s, line_of ts s -> line_of ts (rev (lstrip (rev s))).
Proof.
  intros ts s. rewrite <- (rev_involutive s) at 1. generalize (rev s) as u. induction u as [|c u IH]; intros L; cbn [lstrip]; auto.
  destruct (is_space c) eqn:S; auto. apply IH. cbn [rev] in L. eapply snoc_line; eauto.
Qed.
Lemma strip_line : forall ts s, line_of ts s -> line_of ts (strip s).
Proof. intros ts s L. unfold strip. now apply rstrip_line, lstrip_line. Qed.
Lemma strip_nil : forall s, all is_space s -> strip s = [].
Proof.
  intros s A. unfold strip. assert (E : lstrip s = []) by (induction A as [|c s H A IH]; cbn [lstrip]; auto; now rewrite H). now rewrite E.
Qed.
Lemma strip_nonblank : forall ts s, line_of ts s -> ts <> [] -> strip s <> [].
Proof.
  intros ts s L N E. apply strip_line in L. rewrite E in L. inversion L as [|gap t ts' rest A O L' Br E1 E2]; subst; [congruence|].
  destruct (ok_tok_head t O) as (c & r & Et & _). rewrite Et in E2. destruct gap; discriminate.
Qed.

(** ** SSE *)
(** no "SSE=" with a number character behind it *)
Definition sse_free (s : text) : Prop := forall a c b, s = a ++ txt "SSE=" ++ c :: b -> is_num c = false.
Lemma strip_prefix_app : forall p s, strip_prefix p (p ++ s) = Some s.
Proof. induction p as [|a p IH]; intros s; cbn [app strip_prefix]; auto. now rewrite Ascii.eqb_refl. Qed.
Lemma strip_prefix_some : forall p s r, strip_prefix p s = Some r -> s = p ++ r.
Proof.
  induction p as [|a p IH]; intros s r H; cbn in H; [cbn; congruence|]. destruct s as [|b s]; [discriminate|].
  destruct (Ascii.eqb_spec a b); [|discriminate]. subst. cbn. f_equal. auto.
Qed.
Lemma sse_none : forall s, sse_free s -> sse_search s = None.
Proof.
  induction s as [|c s IH]; intros H; auto. cbn [sse_search].
  assert (T : sse_free s) by (intros a x b E; apply (H (c :: a) x b); now rewrite E).
  destruct (strip_prefix (txt "SSE=") (c :: s)) as [r|] eqn:E; auto. apply strip_prefix_some in E.
  destruct r as [|x r]; [auto|]. cbn [span]. rewrite (H [] x r E). auto.
Qed.
Lemma sse_found : forall pre num rest, (forall a b, pre <> a ++ txt "SSE=" ++ b) -> all is_num num -> num <> [] ->
  rest = [] \/ (exists c r, rest = c :: r /\ is_num c = false) ->
  sse_search (pre ++ txt "SSE=" ++ num ++ rest) = Some (num, rest).
Proof.
  intros pre num rest H A N R. induction pre as [|c pre IH].
  - cbn [app]. destruct num as [|d num]; [congruence|]. 
    change (match strip_prefix (txt "SSE=") (txt "SSE=" ++ (d :: num) ++ rest) with
            | Some r => match span is_num r with ([], _) => sse_search (txt "SE=" ++ (d :: num) ++ rest) | (n, rest) => Some (n, rest) end
            | None => sse_search (txt "SE=" ++ (d :: num) ++ rest) end = Some (d :: num, rest)).
    rewrite strip_prefix_app.
    rewrite (span_app is_num (d :: num)) by auto. reflexivity.
  - cbn [app sse_search]. rewrite IH; [|intros a b E; apply (H (c :: a) b); now rewrite E].
    destruct (strip_prefix (txt "SSE=") (c :: pre ++ txt "SSE=" ++ num ++ rest)) as [r|] eqn:E; auto. exfalso.
    apply strip_prefix_some in E. cbn [txt list_ascii_of_string app] in E. 
    destruct pre as [|c1 pre]; cbn [app] in E; [injection E as -> E; discriminate|].
    destruct pre as [|c2 pre]; cbn [app] in E; [injection E as -> -> E; discriminate|].
    destruct pre as [|c3 pre]; cbn [app] in E; [injection E as -> -> -> E; discriminate|].
    injection E as -> -> -> -> E. apply (H [] pre). reflexivity.
Qed.

(** ** the dict *)
Lemma text_eqb_eq : forall a b, text_eqb a b = true <-> a = b.
Proof. intros a b. unfold text_eqb. destruct (list_eq_dec ascii_dec a b); split; congruence. Qed.
Lemma text_eqb_refl : forall a, text_eqb a a = true.
Proof. intros. now apply text_eqb_eq. Qed.
Lemma tset_new : forall A (d : tdict A) k v, ~ In k (map fst d) -> tset d k v = d ++ [(k, v)].
Proof.
  induction d as [|[k' v'] d IH]; intros k v N; cbn [tset app]; auto. destruct (text_eqb k' k) eqn:E.
  - apply text_eqb_eq in E. subst. exfalso. apply N. now left.
  - rewrite IH; auto. intros I. apply N. now right.
Qed.
Lemma tset_all_app : forall A (l d : tdict A), NoDup (map fst (d ++ l)) -> tset_all d l = d ++ l.
Proof.
  induction l as [|[k v] l IH]; intros d N; cbn [tset_all fold_left]; [now rewrite app_nil_r|].
  change (tset_all (tset d k v) l = d ++ (k, v) :: l). rewrite tset_new.
  - rewrite IH; rewrite <- app_assoc; auto.
  - rewrite map_app in N. cbn in N. apply NoDup_remove_2 in N. intros I. apply N. apply in_or_app. now left.
Qed.
Lemma tset_all_nil : forall A (l : tdict A), NoDup (map fst l) -> tset_all [] l = l.
Proof. intros. now apply (tset_all_app A l []). Qed.
Lemma tset_all_comp : forall A (l m : list (text * A)) (d : tdict A), tset_all (tset_all d l) m = tset_all d (l ++ m).
Proof. intros. unfold tset_all. now rewrite fold_left_app. Qed.
Lemma tget_tset : forall A (d : tdict A) k v j, tget (tset d k v) j = if text_eqb k j then Some v else tget d j.
Proof.
  induction d as [|[k' v'] d IH]; intros k v j; cbn [tset tget]; [reflexivity|]. destruct (text_eqb k' k) eqn:E.
  - apply text_eqb_eq in E. subst. cbn [tget]. now destruct (text_eqb k j).
  - cbn [tget]. rewrite IH. destruct (text_eqb k' j) eqn:E2; auto. destruct (text_eqb k j) eqn:E3; auto.
    apply text_eqb_eq in E2, E3. subst. rewrite text_eqb_refl in E. discriminate.
Qed.

Section P.
Context {F : Type}.
Variable tofloat : text -> option F.
(** ** blocks of a log *)
Lemma phase1_noise : forall ns lines, Forall sse_free ns -> phase1 tofloat None (ns ++ lines) = phase1 tofloat None lines.
Proof. intros ns lines H. induction H as [|l ns Hl H IH]; cbn [app phase1]; auto. now rewrite sse_none. Qed.
Lemma phase1_more : forall tss ls, Forall2 (fun ts l => line_of ts l /\ ts <> []) tss ls ->
  forall x pd lines, phase1 tofloat (Some (x, pd)) (ls ++ lines) = phase1 tofloat (Some (x, tset_all pd (flat_map params tss))) lines.
Proof.
  intros tss ls H. induction H as [|ts l tss ls [L N] H IH]; intros x pd lines; cbn [app flat_map]; [reflexivity|].
  cbn [phase1]. assert (S := strip_nonblank ts l L N). assert (K := scan_line_spec ts (strip l) (strip_line ts l L)).
  destruct (strip l) as [|c s]; [congruence|]. rewrite K. rewrite IH. rewrite tset_all_comp. reflexivity.
Qed.
Lemma phase1_entry : forall pre num rest ts tss ls x lines, (forall a b, pre <> a ++ txt "SSE=" ++ b) -> all is_num num -> num <> [] ->
  line_of ts rest -> rest = [] \/ (exists c r, rest = c :: r /\ is_num c = false) -> tofloat num = Some x ->
  Forall2 (fun ts l => line_of ts l /\ ts <> []) tss ls ->
  lines = [] \/ (exists b more, lines = b :: more /\ all is_space b) ->
  phase1 tofloat None ((pre ++ txt "SSE=" ++ num ++ rest) :: ls ++ lines) =
  yield1 (x, tset_all [] (params ts ++ flat_map params tss)) (phase1 tofloat None (tl lines)).
Proof.
  intros pre num rest ts tss ls x lines P N1 N2 L R T H B. cbn [phase1]. rewrite sse_found by auto. rewrite T.
  rewrite (scan_line_spec ts) by auto. rewrite (phase1_more tss) by auto. rewrite tset_all_comp.
  destruct B as [->|(b & more & -> & B)]; cbn [phase1 tl]; [reflexivity|]. now rewrite strip_nil.
Qed.

(** ** termination *)
Lemma scan_line_total : forall l, exists ps, scan_line l = Some ps.
Proof. intros l. apply scan_total. auto. Qed.
Lemma phase1_fuel : forall lines cur, snd (phase1 tofloat cur lines) <> OutOfFuel.
Proof.
  induction lines as [|l lines IH]; intros cur; cbn [phase1]; [discriminate|]. destruct cur as [[x pd]|].
  - destruct (strip l) as [|c s]; [apply IH|]. destruct (scan_line_total (c :: s)) as [ps ->]. apply IH.
  - destruct (sse_search l) as [[n r]|]; [|apply IH]. destruct (tofloat n); [|discriminate]. destruct (scan_line_total r) as [ps ->]. apply IH.
Qed.
Lemma columns_fuel : forall ps SSEs k, snd (columns tofloat ps k SSEs) <> OutOfFuel.
Proof.
  induction SSEs as [|s SSEs IH]; intros k; cbn [columns]; [discriminate|]. destruct (column_line ps k) as [l|]; [|discriminate].
  destruct (scan_line_total l) as [q ->]. destruct (tofloat s); [|discriminate]. cbn. apply IH.
Qed.

End P.

(** ** the table *)
Lemma words_from_word : forall w cur s, none is_space w -> words_from cur (w ++ s) = words_from (rev w ++ cur) s.
Proof.
  induction w as [|c w IH]; intros cur s H; auto. inversion H; subst. cbn [app words_from]. rewrite H2, IH by auto. cbn [rev]. now rewrite <- app_assoc.
Qed.
Lemma words_gap : forall g s, all is_space g -> words_from [] (g ++ s) = words_from [] s.
Proof. intros g s H. induction H as [|c g Hc H IH]; cbn [app words_from]; auto. now rewrite Hc. Qed.
(** cells separated by white space *)
Inductive cells_of : list text -> text -> Prop :=
| co_nil : forall trail, all is_space trail -> cells_of [] trail
| co_cons : forall gap w ws rest, all is_space gap -> none is_space w -> w <> [] -> cells_of ws rest -> blank_start rest ->
    cells_of (w :: ws) (gap ++ w ++ rest).
Lemma words_spec : forall ws s, cells_of ws s -> words s = ws.
Proof.
  intros ws s H. unfold words. induction H as [trail A|gap w ws rest A W N H IH B].
  - rewrite <- (app_nil_r trail). now rewrite words_gap.
  - rewrite words_gap by auto. rewrite words_from_word by auto. rewrite app_nil_r. assert (R : rev w <> []).
    { intros E. apply N. rewrite <- (rev_involutive w), E. reflexivity. }
    destruct B as [->|(c & r & -> & S)].
    + inversion H as [|gap' w' ws' rest' A' W' N' H' B' E1 E2]; subst; [|destruct gap', w'; try discriminate; congruence].
      cbn [words_from]. destruct (rev w) eqn:E; [congruence|]. rewrite <- E, rev_involutive. reflexivity.
    + cbn [words_from] in *. rewrite S in *. destruct (rev w) eqn:E; [congruence|]. rewrite <- E, rev_involutive. f_equal. exact IH.
Qed.
Lemma cells_lstrip1 : forall ws c s, cells_of ws (c :: s) -> is_space c = true -> cells_of ws s.
Proof.
  intros ws c s H S. inversion H as [trail A E1 E2|gap w ws' rest A W N H' B E1 E2]; subst.
  - inversion A; subst. now constructor.
  - destruct gap as [|d gap]; [|cbn in E2; injection E2 as -> <-; inversion A; subst; now constructor].
    destruct w as [|d w]; [congruence|]. cbn in E2. injection E2 as -> _. inversion W; congruence.
Qed.
Lemma cells_rstrip1 : forall ws s c, cells_of ws (s ++ [c]) -> is_space c = true -> cells_of ws s.
Proof.
  intros ws s c H S. remember (s ++ [c]) as u eqn:E. revert s E. induction H as [trail A|gap w ws rest A W N H IH B]; intros s E.
  - subst. apply all_app in A. constructor. tauto.
  - destruct rest as [|x rest] using rev_ind; [|clear IHrest].
    + exfalso. rewrite app_nil_r in E. destruct w as [|y w] using rev_ind; [congruence|]. rewrite app_assoc in E. apply app_inj_tail in E. destruct E as [_ ->].
      apply Forall_app in W. destruct W as [_ W]. inversion W; congruence.
    + rewrite !app_assoc in E. apply app_inj_tail in E. destruct E as [<- ->]. rewrite <- app_assoc. constructor; auto.
      destruct rest as [|y rest]; [now left|]. right. destruct B as [B|(z & q & B & Sz)]; [destruct rest; discriminate|].
      cbn [app] in B. injection B as -> _. eauto.
Qed.
Lemma cells_strip : forall ws s, cells_of ws s -> cells_of ws (strip s).
Proof.
  intros ws s H. unfold strip. assert (L : cells_of ws (lstrip s)).
  { induction s as [|c s IH]; cbn [lstrip]; auto. destruct (is_space c) eqn:S; auto. apply IH. eapply cells_lstrip1; eauto. }
  revert L. generalize (lstrip s) as u. clear. intros u. rewrite <- (rev_involutive u) at 1. generalize (rev u) as q. clear.
  induction q as [|c q IH]; intros L; cbn [lstrip]; auto. destruct (is_space c) eqn:S; auto. apply IH. cbn [rev] in L. eapply cells_rstrip1; eauto.
Qed.
Lemma split_bar_none : forall s, ~ In "|"%char s -> split_bar s = [s].
Proof.
  induction s as [|c s IH]; intros N; auto. cbn [split_bar]. destruct (Ascii.eqb_spec c "|"); [subst; exfalso; apply N; now left|].
  rewrite IH; auto. intros I. apply N. now right.
Qed.
Lemma split_bar_one : forall a b, ~ In "|"%char a -> ~ In "|"%char b -> split_bar (a ++ "|"%char :: b) = [a; b].
Proof.
  induction a as [|c a IH]; intros b A B; cbn [app split_bar].
  - cbn [Ascii.eqb Bool.eqb]. now rewrite split_bar_none.
  - destruct (Ascii.eqb_spec c "|"); [subst; exfalso; apply A; now left|]. rewrite IH; auto. intros I. apply A. now right.
Qed.
(** strip of a text with a word in it *)
Lemma lstrip_gap : forall g s, all is_space g -> lstrip (g ++ s) = lstrip s.
Proof. intros g s H. induction H as [|c g Hc H IH]; cbn [app lstrip]; auto. now rewrite Hc. Qed.
Lemma all_rev : forall p (s : text), all p s -> all p (rev s).
Proof. intros p s H. unfold all in *. rewrite Forall_forall in *. intros x I. apply H. now apply in_rev. Qed.
Lemma lstrip_word : forall w s, none is_space w -> w <> [] -> lstrip (w ++ s) = w ++ s.
Proof. intros [|c w] s H N; [congruence|]. inversion H; subst. cbn. now rewrite H2. Qed.
Lemma strip_mid : forall g w t, all is_space g -> none is_space w -> w <> [] -> all is_space t -> strip (g ++ w ++ t) = w.
Proof.
  intros g w t G W N T. unfold strip. rewrite lstrip_gap by auto. rewrite lstrip_word by auto. rewrite rev_app_distr. rewrite lstrip_gap by now apply all_rev.
  assert (W' : none is_space (rev w)). { unfold none in *. rewrite Forall_forall in *. intros x I. apply W. now apply in_rev. }
  assert (N' : rev w <> []). { intros E. apply N. rewrite <- (rev_involutive w), E. reflexivity. }
  rewrite <- (app_nil_r (rev w)). rewrite lstrip_word by auto. rewrite app_nil_r. apply rev_involutive.
Qed.

Definition rstrip (s : text) : text := rev (lstrip (rev s)).
Lemma lstrip_app : forall a c b, is_space c = false -> lstrip (a ++ c :: b) = lstrip a ++ c :: b.
Proof. induction a as [|d a IH]; intros c b H; cbn [app lstrip]; [now rewrite H|]. destruct (is_space d); auto. Qed.
Lemma strip_mark : forall a c b, is_space c = false -> strip (a ++ c :: b) = lstrip a ++ c :: rstrip b.
Proof.
  intros a c b H. unfold strip, rstrip. rewrite lstrip_app by auto. rewrite rev_app_distr. cbn [rev]. rewrite <- app_assoc. cbn [app].
  rewrite lstrip_app by auto. rewrite rev_app_distr. cbn [rev]. rewrite rev_involutive, <- app_assoc. reflexivity.
Qed.
Lemma lstrip_split : forall s, exists g, all is_space g /\ s = g ++ lstrip s.
Proof.
  induction s as [|c s (g & G & E)]; [exists []; split; auto; constructor|]. cbn [lstrip]. destruct (is_space c) eqn:S.
  - exists (c :: g). split; [now constructor|]. cbn. now f_equal.
  - exists []. split; auto. constructor.
Qed.
Lemma rstrip_split : forall s, exists t, all is_space t /\ s = rstrip s ++ t.
Proof.
  intros s. destruct (lstrip_split (rev s)) as (g & G & E). exists (rev g). split; [now apply all_rev|]. unfold rstrip.
  rewrite <- rev_app_distr, <- E. now rewrite rev_involutive.
Qed.
Lemma lstrip_in : forall c s, In c (lstrip s) -> In c s.
Proof. intros c s I. destruct (lstrip_split s) as (g & _ & E). rewrite E. apply in_or_app. now right. Qed.
Lemma rstrip_in : forall c s, In c (rstrip s) -> In c s.
Proof. intros c s I. destruct (rstrip_split s) as (g & _ & E). rewrite E. apply in_or_app. now left. Qed.
Lemma cells_rstrip : forall ws s, cells_of ws s -> cells_of ws (rstrip s).
Proof.
  intros ws u. unfold rstrip. rewrite <- (rev_involutive u) at 1. generalize (rev u) as q. clear.
  induction q as [|c q IH]; intros L; cbn [lstrip]; auto. destruct (is_space c) eqn:S; auto. apply IH. cbn [rev] in L. eapply cells_rstrip1; eauto.
Qed.
(** a line that begins, after white space, with a given text *)
Definition begins (p l : text) : Prop := exists g r, all is_space g /\ l = g ++ p ++ r.
Lemma strip_prefix_iff : forall p s, starts_with p s = true <-> exists r, s = p ++ r.
Proof.
  intros p s. unfold starts_with. split.
  - destruct (strip_prefix p s) as [r|] eqn:E; [|discriminate]. intros _. exists r. now apply strip_prefix_some.
  - intros (r & ->). now rewrite strip_prefix_app.
Qed.
Lemma starts_strip : forall p c q d l, p = c :: q -> is_space c = false -> (exists m, p = m ++ [d]) -> is_space d = false ->
  (starts_with p (strip l) = true <-> begins p l).
Proof.
  intros p c q d l Ep Sc (m & Em) Sd. rewrite strip_prefix_iff. unfold begins. split.
  - intros (r & E). unfold strip in E. destruct (lstrip_split l) as (g & G & El). destruct (rstrip_split (lstrip l)) as (t & T & Et).
    unfold rstrip in Et. rewrite E in Et. exists g, (r ++ t). split; auto. rewrite El at 1. rewrite Et. now rewrite <- app_assoc.
  - intros (g & r & G & ->). rewrite Em. rewrite <- app_assoc. cbn [app]. rewrite app_assoc. rewrite strip_mark by auto. rewrite lstrip_gap by auto.
    exists (rstrip r). rewrite <- app_assoc. cbn [app]. f_equal.
    destruct m as [|c' m]; auto. rewrite Em in Ep. cbn in Ep. injection Ep as -> _. cbn [lstrip]. now rewrite Sc.
Qed.
Lemma begins_false : forall p c q d l, p = c :: q -> is_space c = false -> (exists m, p = m ++ [d]) -> is_space d = false ->
  ~ begins p l -> starts_with p (strip l) = false.
Proof. intros p c q d l E1 E2 E3 E4 N. destruct (starts_with p (strip l)) eqn:E; auto. exfalso. apply N. apply (starts_strip p c q d l); auto. Qed.

(** a row of the table: the name, a bar, the cells *)
Definition row_line (n : text) (ws : list text) (l : text) : Prop :=
  exists g g2 b, l = g ++ n ++ g2 ++ "|"%char :: b /\ all is_space g /\ all is_space g2 /\ cells_of ws b /\ ~ In "|"%char b.
Lemma name_props : forall n, ok_name n -> n <> [] /\ none is_space n /\ ~ In "|"%char n /\ (forall r, n <> "-"%char :: r).
Proof.
  intros n (c & r & -> & L & W). split; [discriminate|]. split; [constructor; [now apply letter_not_space|eapply Forall_impl; [|exact W]; apply wordc_not_space]|].
  split.
  - intros [E|I]; [subst; discriminate|]. unfold all in W. rewrite Forall_forall in W. specialize (W _ I). discriminate.
  - intros r' E. injection E as -> _. discriminate.
Qed.
Lemma space_bar : forall g, all is_space g -> ~ In "|"%char g.
Proof. intros g G I. unfold all in G. rewrite Forall_forall in G. specialize (G _ I). discriminate. Qed.
Lemma row_strip : forall n ws l, none is_space n -> n <> [] -> row_line n ws l ->
  exists g2 b, strip l = (n ++ g2) ++ "|"%char :: b /\ all is_space g2 /\ cells_of ws b /\ ~ In "|"%char b.
Proof.
  intros n ws l N1 N2 (g & g2 & b & -> & G & G2 & C & B).
  exists g2, (rstrip b). rewrite !app_assoc. rewrite strip_mark by reflexivity. rewrite <- app_assoc. rewrite lstrip_gap by auto. rewrite lstrip_word by auto.
  repeat split; auto; [now apply cells_rstrip|]. intros I. apply B. now apply rstrip_in.
Qed.
Lemma table2_rows : forall rows ls, Forall2 (fun p l => ok_name (fst p) /\ row_line (fst p) (snd p) l) rows ls ->
  forall params more, NoDup (map fst (params ++ rows)) -> table2 params (ls ++ more) = table2 (params ++ rows) more.
Proof.
  intros rows ls H. induction H as [|[n ws] l rows ls [O R] H IH]; intros ps more D; [now rewrite app_nil_r|].
  cbn [fst snd] in *. destruct (name_props n O) as (N1 & N2 & N3 & N4). destruct (row_strip n ws l N2 N1 R) as (g2 & b & E & G2 & C & B).
  cbn [app table2]. rewrite E.
  assert (S : starts_with (txt "--") ((n ++ g2) ++ "|"%char :: b) = false).
  { destruct (starts_with _ _) eqn:S; auto. apply strip_prefix_iff in S as (r & S). exfalso. destruct n as [|c n]; [congruence|]. cbn in S. injection S as -> _. now apply (N4 n). }
  rewrite S. rewrite split_bar_one; auto.
  - assert (K : strip (n ++ g2) = n) by (apply (strip_mid [] n g2); auto; constructor). rewrite K.
    rewrite (words_spec ws) by now apply cells_strip.
    rewrite tset_new.
    + rewrite IH; [rewrite <- app_assoc; reflexivity|]. now rewrite <- app_assoc.
    + rewrite map_app in D. cbn in D. apply NoDup_remove_2 in D. intros I. apply D. apply in_or_app. now left.
  - intros I. apply in_app_or in I as [I|I]; [auto|now apply (space_bar g2)].
Qed.
Lemma starts_dashes : forall l, starts_with (txt "--") (strip l) = true <-> begins (txt "--") l.
Proof. intros l. apply (starts_strip (txt "--") "-"%char [ "-"%char ] "-"%char); auto. exists ["-"%char]. reflexivity. Qed.
Lemma starts_sse : forall l, starts_with (txt "SSE") (strip l) = true <-> begins (txt "SSE") l.
Proof. intros l. apply (starts_strip (txt "SSE") "S"%char (txt "SE") "E"%char); auto. exists (txt "SS"). reflexivity. Qed.
Lemma starts_final : forall l, starts_with (txt "Final population") (strip l) = true <-> begins (txt "Final population") l.
Proof. intros l. apply (starts_strip (txt "Final population") "F"%char (txt "inal population") "n"%char); auto. exists (txt "Final populatio"). reflexivity. Qed.
Lemma table2_dashes : forall ds more, Forall (begins (txt "--")) ds -> table2 [] (ds ++ more) = table2 [] more.
Proof.
  intros ds more H. induction H as [|d ds Hd H IH]; auto. cbn [app table2]. apply starts_dashes in Hd. now rewrite Hd.
Qed.

(** the table in the lines: its SSEs and rows *)
Inductive table_in (SSEs : list text) (rows : list (text * list text)) : list text -> Prop :=
| table_intro : forall before fp mid hdr ds rls dash after,
    Forall (fun l => ~ begins (txt "Final population") l) before -> begins (txt "Final population") fp ->
    Forall (fun l => ~ begins (txt "SSE") l) mid -> row_line (txt "SSE") SSEs hdr ->
    Forall (begins (txt "--")) ds -> Forall2 (fun p l => ok_name (fst p) /\ row_line (fst p) (snd p) l) rows rls -> rows <> [] ->
    begins (txt "--") dash ->
    table_in SSEs rows (before ++ fp :: mid ++ hdr :: ds ++ rls ++ dash :: after).
Lemma table0_spec : forall SSEs rows lines, table_in SSEs rows lines -> NoDup (map fst rows) -> table0 lines = Ok (SSEs, rows).
Proof.
  intros SSEs rows lines H D. destruct H as [before fp mid hdr ds rls dash after B FP M H DS R RN DA].
  assert (T0 : forall more, table0 (before ++ fp :: more) = table1 more).
  { intros more. clear - B FP. induction B as [|l before Hl B IH]; cbn [app table0].
    - apply starts_final in FP. now rewrite FP.
    - destruct (starts_with (txt "Final population") (strip l)) eqn:E; auto. exfalso. apply Hl. now apply starts_final. }
  rewrite T0. clear T0. induction M as [|l mid Hl M IH]; cbn [app table1].
  - assert (SE : starts_with (txt "SSE") (strip hdr) = true).
    { apply starts_sse. destruct H as (g & g2 & b & -> & G & _). exists g. eexists. split; [auto|reflexivity]. }
    rewrite SE. destruct (row_strip (txt "SSE") SSEs hdr) as (g2 & b & E & G2 & C & NB); auto; [now repeat constructor|discriminate|].
    rewrite E. rewrite split_bar_one; auto.
    + rewrite table2_dashes by auto. rewrite (table2_rows rows) by auto. cbn [app]. cbn [table2]. apply starts_dashes in DA. rewrite DA.
      destruct rows as [|x rows]; [congruence|]. cbn [bind]. now rewrite (words_spec SSEs).
    + intros I. apply in_app_or in I as [I|I]; [|now apply (space_bar g2)]. cbn in I. repeat destruct I as [I|I]; try discriminate. destruct I.
  - destruct (starts_with (txt "SSE") (strip l)) eqn:E; auto. exfalso. apply Hl. now apply starts_sse.
Qed.
Lemma table0_none : forall lines, Forall (fun l => ~ begins (txt "Final population") l) lines -> table0 lines = Ok ([], []).
Proof.
  intros lines H. induction H as [|l lines Hl H IH]; auto. cbn [table0]. destruct (starts_with _ _) eqn:E; auto. exfalso. apply Hl. now apply starts_final.
Qed.

(** the cells: value and stars *)
Definition cell (p : text * text) : text := fst p ++ snd p.
Definition ok_cell (p : text * text) : Prop := ok_val (fst p) /\ all is_star (snd p).
Definition column {A} (d : A) (k : nat) (rows : list (text * list A)) : list (text * A) := map (fun r => (fst r, nth k (snd r) d)) rows.
Lemma join_line : forall vals, Forall (fun p => ok_name (fst p) /\ ok_cell (snd p)) vals ->
  line_of (map (fun p : found => TPar (fst p) (fst (snd p)) (snd (snd p)) false) vals) (join (txt " ") (map (fun p : found => fst p ++ txt "=" ++ cell (snd p)) vals)).
Proof.
  intros vals H. induction H as [|[n [v st]] vals [O [V S]] H IH]; [constructor; constructor|]. cbn [map fst snd] in *.
  assert (T : tok_text (TPar n v st false) = n ++ txt "=" ++ cell (v, st)) by (cbn [tok_text]; unfold cell; cbn [fst snd]; now rewrite app_nil_r).
  destruct vals as [|q vals].
  - cbn [map join]. rewrite <- T. rewrite <- (app_nil_r (tok_text _)). change (tok_text (TPar n v st false) ++ []) with ([] ++ tok_text (TPar n v st false) ++ []).
    constructor; [constructor|repeat split; auto|constructor; constructor|now left].
  - change (line_of (TPar n v st false :: map (fun p : found => TPar (fst p) (fst (snd p)) (snd (snd p)) false) (q :: vals))
      ((n ++ txt "=" ++ cell (v, st)) ++ txt " " ++ join (txt " ") (map (fun p : found => fst p ++ txt "=" ++ cell (snd p)) (q :: vals)))).
    rewrite <- T. change (tok_text (TPar n v st false) ++ txt " " ++ join (txt " ") (map (fun p : found => fst p ++ txt "=" ++ cell (snd p)) (q :: vals)))
      with ([] ++ tok_text (TPar n v st false) ++ " "%char :: join (txt " ") (map (fun p : found => fst p ++ txt "=" ++ cell (snd p)) (q :: vals))).
    constructor; [constructor|repeat split; auto| |right; eauto].
    revert IH. generalize (map (fun p : found => TPar (fst p) (fst (snd p)) (snd (snd p)) false) (q :: vals)) as ts.
    generalize (join (txt " ") (map (fun p : found => fst p ++ txt "=" ++ cell (snd p)) (q :: vals))) as u. clear. intros u ts L.
    destruct L as [trail A|gap t ts rest A O L Br]; [constructor; constructor; auto|]. change (" "%char :: gap ++ tok_text t ++ rest) with ((" "%char :: gap) ++ tok_text t ++ rest).
    constructor; auto. constructor; auto.
Qed.
Lemma params_pars : forall (vals : list found), params (map (fun p : found => TPar (fst p) (fst (snd p)) (snd (snd p)) false) vals) = vals.
Proof. induction vals as [|[n [v st]] vals IH]; auto. cbn [map params flat_map fst snd app]. exact (f_equal (cons (n, (v, st))) IH). Qed.
Section C.
Context {F : Type}.
Variable tofloat : text -> option F.
Variable d : text * text.
Lemma column_ok : forall (rows : list (text * list (text * text))) k, Forall (fun r => k < length (snd r)) rows ->
  column_line (map (fun r => (fst r, map cell (snd r))) rows) k = Ok (join (txt " ") (map (fun p : found => fst p ++ txt "=" ++ cell (snd p)) (column d k rows))).
Proof.
  intros rows k H. unfold column_line.
  assert (M : mapM (fun p : text * list text => match nth_error (snd p) k with Some v => Ok (fst p ++ txt "=" ++ v) | None => Raise IndexError end)
      (map (fun r => (fst r, map cell (snd r))) rows) = Ok (map (fun p : found => fst p ++ txt "=" ++ cell (snd p)) (column d k rows))).
  { induction H as [|[n cs] rows Hr H IH]; auto. cbn [map mapM fst snd] in *. rewrite nth_error_map.
    rewrite (nth_error_nth' cs d Hr). cbn [option_map bind]. rewrite IH. reflexivity. }
  exact (f_equal (fun z => bind z (fun parts => Ok (join (txt " ") parts))) M).
Qed.
Lemma columns_spec : forall (rows : list (text * list (text * text))) SSEs xs k,
  NoDup (map fst rows) -> Forall (fun r => ok_name (fst r) /\ Forall ok_cell (snd r) /\ k + length SSEs <= length (snd r)) rows ->
  Forall2 (fun s x => tofloat s = Some x) SSEs xs ->
  columns tofloat (map (fun r => (fst r, map cell (snd r))) rows) k SSEs =
  (map (fun p => (snd p, column d (fst p) rows)) (combine (seq k (length xs)) xs), Finished).
Proof.
  intros rows SSEs xs k D R H. revert k R. induction H as [|s x SSEs xs Hs H IH]; intros k R; auto. cbn [columns length seq combine map fst snd] in *.
  rewrite column_ok; [|eapply Forall_impl; [|exact R]; cbn; intros a (_ & _ & L); lia].
  rewrite (scan_line_spec _ _ (join_line (column d k rows) ltac:(
    unfold column; apply Forall_forall; intros q I; apply in_map_iff in I as (r & <- & I); rewrite Forall_forall in R; destruct (R r I) as (R1 & R2 & R3); cbn [fst snd]; split; auto;
    rewrite Forall_forall in R2; apply R2, nth_In; lia))).
  rewrite params_pars. rewrite Hs. rewrite tset_all_nil.
  - rewrite (IH (S k)); [reflexivity|]. eapply Forall_impl; [|exact R]. cbn. intros a (A1 & A2 & A3). repeat split; auto. lia.
  - unfold column. rewrite map_map. cbn. exact D.
Qed.
End C.

(** * Property C109: pretty-printed values are wrapped at 120 columns. *)
From Coq Require Import Bool Arith Ascii String List Lia.
From Verif Require Import Flt Py LogModel LogProps WrapModel.
Import ListNotations.
Local Open Scope nat_scope.

Definition visible (c : ascii) : bool := negb (existsb (Ascii.eqb c) (map ascii_of_nat [9; 10; 11; 12; 13; 28; 29; 30; 31; 32])).
Definition sp : text := lit " ".

Lemma visible_space c : visible c = negb (is_space c).
Proof. destruct c as [[] [] [] [] [] [] [] []]; reflexivity. Qed.
Lemma ws_space c : is_ws c = true -> is_space c = true.
Proof. destruct c as [[] [] [] [] [] [] [] []]; cbv; congruence. Qed.
Lemma white_space c : white c <-> is_space c = true.
Proof.
  unfold white. split.
  - intros I. cbn [map In] in I. repeat destruct I as [<-|I]; try reflexivity. contradiction.
  - destruct c as [[] [] [] [] [] [] [] []]; intros H; try discriminate H; cbv; tauto.
Qed.
Lemma blank_filter s : blank s = true -> filter visible s = [].
Proof.
  induction s as [|c s IH]; [reflexivity|]. cbn [blank forallb filter]. intros H. apply andb_prop in H as [H1 H2]. rewrite visible_space, H1. cbn [negb]. now apply IH.
Qed.
Lemma filter_app' {A} (f : A -> bool) a b : filter f (a ++ b) = filter f a ++ filter f b.
Proof. apply filter_app. Qed.

(** ** chunks *)
Definition ne (s : text) : Prop := s <> [].
Lemma runs_spec s : concat (runs s) = s /\ Forall ne (runs s).
Proof.
  induction s as [|c s [C N]]; [split; [reflexivity|constructor]|]. cbn [runs]. destruct (runs s) as [|[|d x] l].
  - cbn in C. subst. split; [reflexivity|]. constructor; [discriminate|constructor].
  - inversion N; subst. congruence.
  - cbn [concat app] in C. destruct (Bool.eqb (is_ws c) (is_ws d)); cbn [concat app]; rewrite C; (split; [reflexivity|]).
    + inversion N; subst. constructor; auto. discriminate.
    + constructor; auto. discriminate.
Qed.
Lemma take_spec w cs n : n <= w -> let (a, b) := take_line w n cs in cs = a ++ b /\ n + length (concat a) <= w /\
  match b with [] => True | c :: _ => w < n + length (concat a) + length c end.
Proof.
  revert n. induction cs as [|c cs IH]; intros n L; cbn [take_line]; [cbn; repeat split; lia|]. destruct (n + length c <=? w) eqn:E.
  - apply Nat.leb_le in E. specialize (IH (n + length c) E). destruct (take_line w (n + length c) cs) as [a b]. destruct IH as (-> & A & B). cbn [concat]. rewrite app_length. split; [reflexivity|]. split; [lia|]. destruct b; auto. lia.
  - apply Nat.leb_gt in E. cbn [concat length app]. repeat split; lia.
Qed.
Lemma concat_ne l : Forall ne l -> concat l = [] -> l = [].
Proof. destruct l as [|x l]; auto. intros N E. inversion N; subst. cbn in E. destruct x; [congruence|discriminate]. Qed.
(** a line: what is put into it, and what is left *)
Lemma line_spec w chunks cur rest : 1 <= w -> Forall ne chunks -> chunks <> [] -> long_word w (take_line w 0 chunks) = (cur, rest) ->
  concat chunks = concat cur ++ concat rest /\ length (concat cur) <= w /\ 1 <= length (concat cur) /\ Forall ne rest /\
  (Forall ne cur \/ exists p, cur = p ++ [[]] /\ Forall ne p).
Proof.
  intros W N NE E. pose proof (take_spec w chunks 0 (Nat.le_0_l _)) as T. destruct (take_line w 0 chunks) as [a b]. destruct T as (-> & A & B). cbn [Nat.add] in A, B. apply Forall_app in N as [NA NB]. unfold long_word in E.
  assert (L1 : a <> [] -> 1 <= length (concat a)). { intros H. destruct (concat a) eqn:C; cbn; [|lia]. apply concat_ne in C; auto. congruence. }
  destruct b as [|c r].
  { assert (cur = a /\ rest = []) as [-> ->] by (split; congruence). rewrite app_nil_r in *. cbn [concat]. rewrite app_nil_r. repeat split; auto. }
  destruct (w <? length c) eqn:E1.
  - apply Nat.ltb_lt in E1. assert (W1 : (w <? 1) = false) by (apply Nat.ltb_ge; lia). rewrite W1 in E. set (left := w - length (concat a)) in *.
    assert (cur = a ++ [firstn left c] /\ rest = skipn left c :: r) as [-> ->] by (split; congruence). rewrite !concat_app. cbn [concat]. rewrite app_nil_r.
    assert (FL : length (firstn left c) = left) by (rewrite firstn_length; lia).
    split; [rewrite <- app_assoc; f_equal; rewrite app_assoc, firstn_skipn; reflexivity|]. rewrite app_length, FL. split; [lia|].
    split; [destruct a as [|x a]; [cbn in left |- *; lia|assert (1 <= length (concat (x :: a))) by (apply L1; discriminate); lia]|].
    split; [inversion NB; subst; constructor; auto; intros H; apply (f_equal (@length ascii)) in H; rewrite skipn_length in H; cbn in H; lia|].
    destruct (firstn left c) eqn:FE; [right; exists a; auto|left]. apply Forall_app. split; auto. constructor; [discriminate|constructor].
  - apply Nat.ltb_ge in E1. assert (cur = a /\ rest = c :: r) as [-> ->] by (split; congruence). rewrite concat_app. split; auto. split; auto.
    split; [|split; auto]. destruct a as [|x a]; [cbn in B; lia|]. apply L1. discriminate.
Qed.
Lemma drop_last_spec cur : Forall ne cur \/ (exists p, cur = p ++ [[]] /\ Forall ne p) -> exists p z, cur = p ++ z /\ drop_last cur = p /\ Forall ne p /\ blank (concat z) = true.
Proof.
  intros H. unfold drop_last. destruct cur as [|y p _] using rev_ind; [exists [], []; cbn; auto|]. rewrite rev_app_distr. cbn [rev app].
  assert (NP : Forall ne p). { destruct H as [H|(q & E & H)]; [apply Forall_app in H; tauto|]. apply app_inj_tail in E as [-> _]. exact H. }
  destruct (blank y) eqn:B.
  - exists p, [y]. rewrite rev_involutive. split; auto. split; auto. split; auto. cbn. now rewrite app_nil_r.
  - exists (p ++ [y]), []. rewrite app_nil_r. split; auto. split; auto. split; [|reflexivity]. apply Forall_app. split; auto. constructor; [|constructor]. intros ->. discriminate B.
Qed.
Lemma wrap_ok w : 1 <= w -> forall fuel first chunks, Forall ne chunks -> length (concat chunks) <= fuel ->
  exists ls, wrap_chunks fuel w first chunks = Some ls /\ Forall (fun l => 1 <= length l <= w) ls /\ filter visible (concat ls) = filter visible (concat chunks).
Proof.
  intros W. induction fuel as [|fuel IH]; intros first chunks N L.
  { assert (chunks = []) as -> by (apply concat_ne; auto; destruct (concat chunks); [reflexivity|cbn in L; lia]). exists []. cbn. auto. }
  destruct chunks as [|c0 cs0]; [exists []; cbn; auto|]. cbn [wrap_chunks].
  assert (DF : exists z, c0 :: cs0 = z ++ drop_first first (c0 :: cs0) /\ blank (concat z) = true /\ (drop_first first (c0 :: cs0) = [] -> cs0 = [])).
  { cbn [drop_first]. destruct (blank c0 && negb first) eqn:B; [exists [c0]|exists []]; cbn [concat app]; [|split; auto; split; auto; discriminate]. rewrite app_nil_r. apply andb_prop in B as [B _]. auto. }
  destruct DF as (z & E & BZ & EMP). set (ch := drop_first first (c0 :: cs0)) in *. rewrite E in N, L |- *. rewrite concat_app, app_length in L. apply Forall_app in N as [NZ N]. rewrite concat_app, filter_app', (blank_filter _ BZ). cbn [app].
  destruct (long_word w (take_line w 0 ch)) as [cur rest] eqn:LW.
  destruct ch as [|c1 ch'] eqn:CE.
  { cbn in LW. assert (cur = [] /\ rest = []) as [-> ->] by (split; congruence). cbn [drop_last rev]. exists []. split; [destruct fuel; reflexivity|]. auto. }
  rewrite <- CE in *. destruct (line_spec w ch cur rest W N ltac:(congruence) LW) as (C & L1 & L2 & NR & SH). rewrite C. rewrite C, app_length in L.
  destruct (drop_last_spec cur SH) as (p & y & E2 & D & NP & BY). rewrite D. rewrite E2, concat_app in L1 |- *. rewrite app_length in L1.
  rewrite !filter_app', (blank_filter _ BY), app_nil_r.
  destruct (IH (match p with [] => first | _ => false end) rest NR ltac:(lia)) as (ls & R & F & V).
  destruct p as [|x p]; [exists ls; cbn [concat app]; auto|]. rewrite R. exists (concat (x :: p) :: ls). split; [reflexivity|]. split.
  - constructor; auto. split; [|lia]. inversion NP; subst. cbn [concat]. rewrite app_length. destruct x; [congruence|cbn; lia].
  - change (concat (concat (x :: p) :: ls)) with (concat (x :: p) ++ concat ls). rewrite filter_app'. now rewrite V.
Qed.
Lemma munge_visible s : filter visible (munge s) = filter visible s.
Proof.
  unfold munge. assert (G : forall s j, filter visible (expandtabs j s) = filter visible s).
  { clear. induction s as [|c s IH]; intros j; [reflexivity|]. cbn [expandtabs]. destruct (Nat.eqb_spec (nat_of_ascii c) 9) as [E|_].
    - assert (c = ascii_of_nat 9) as -> by (rewrite <- E; symmetry; apply ascii_nat_embedding). rewrite filter_app', IH. cbn [filter visible]. generalize (8 - j mod 8). induction n as [|n IHn]; [reflexivity|exact IHn].
    - destruct (_ || _); cbn [filter]; now rewrite IH. }
  rewrite <- (G s 0). generalize (expandtabs 0 s). clear. induction t as [|c s IH]; [reflexivity|]. cbn [map filter]. rewrite IH. destruct (is_ws c) eqn:E; [|reflexivity].
  apply ws_space in E. rewrite (visible_space c), E. reflexivity.
Qed.

(** *** C109 *)
(** Wrapping always comes to an end; no line is empty or longer than the width, and
    nothing but white space gets lost, whatever the text *)
Theorem C109_lines : forall w s, 1 <= w -> exists ls, wrap w s = Some ls /\ Forall (fun l => 1 <= length l <= w) ls /\ filter visible (concat ls) = filter visible s.
Proof.
  intros w s W. unfold wrap. cbv zeta. destruct (runs_spec (munge s)) as [C N]. destruct (wrap_ok w W (S (length (munge s))) true (runs (munge s)) N) as (ls & E & F & V); [rewrite C; lia|].
  exists ls. split; auto. split; auto. rewrite V, C. apply munge_visible.
Qed.
Print Assumptions C109_lines.
Example C109_lines_ex : option_map (map string_of_list_ascii) (wrap 5 (lit "  ab"%string ++ map ascii_of_nat [9; 10] ++ lit "cdefghij   k l m"%string))
  = Some ["  ab"; "cdefg"; "hij"; "k l m"]%string.
Proof. reflexivity. Qed.

(** ** items *)
(** items with a space between each two *)
Fixpoint isp (l : list text) : list text := match l with [] => [] | [x] => [x] | x :: l => x :: sp :: isp l end.
Lemma isp_cons x y l : isp (x :: y :: l) = x :: sp :: isp (y :: l). Proof. reflexivity. Qed.
Lemma join_cons x y l : join sp (x :: y :: l) = x ++ sp ++ join sp (y :: l). Proof. reflexivity. Qed.
Lemma isp_concat l : concat (isp l) = join sp l.
Proof. induction l as [|x [|y l] IH]; [reflexivity|cbn; apply app_nil_r|]. rewrite isp_cons, join_cons. cbn [concat]. now rewrite IH. Qed.
Definition item (w : nat) (x : text) : Prop := x <> [] /\ nospace x /\ length x <= w.
Lemma item_ws w x : item w x -> Forall (fun c => is_ws c = false) x.
Proof.
  intros (_ & N & _). eapply Forall_impl; [|exact N]. cbn. intros c H. destruct (is_ws c) eqn:E; auto. exfalso. apply H. apply white_space. now apply ws_space.
Qed.
Lemma item_blank w x : item w x -> blank x = false.
Proof.
  intros (NE & N & _). destruct x as [|c x]; [congruence|]. inversion N; subst. cbn [blank forallb]. destruct (is_space c) eqn:E; auto. exfalso. apply H1. now apply white_space.
Qed.
Lemma runs_item x s : x <> [] -> Forall (fun c => is_ws c = false) x -> match s with [] => True | c :: _ => is_ws c = true end -> runs (x ++ s) = x :: runs s.
Proof.
  intros NE F S. induction x as [|c x IH]; [congruence|]. inversion F; subst. destruct x as [|d x].
  - cbn [app runs]. destruct s as [|e s]; [reflexivity|]. pose proof (runs_spec (e :: s)) as [C N]. destruct (runs (e :: s)) as [|[|f y] l] eqn:R.
    + cbn in C. discriminate.
    + inversion N; subst. congruence.
    + cbn in C. injection C as -> _. rewrite H1, S. reflexivity.
  - specialize (IH ltac:(discriminate) H2). cbn [app runs] in *. rewrite IH. inversion H2; subst. rewrite H1, H3. reflexivity.
Qed.
Lemma runs_sp s : match s with [] => False | c :: _ => is_ws c = false end -> runs (sp ++ s) = sp :: runs s.
Proof.
  intros S. destruct s as [|e s]; [contradiction|]. change (runs (" "%char :: e :: s) = sp :: runs (e :: s)). pose proof (runs_spec (e :: s)) as [C N]. remember (e :: s) as t. cbn [runs]. destruct (runs t) as [|[|f y] l] eqn:R.
  - subst t. cbn in C. discriminate.
  - inversion N; subst. congruence.
  - subst t. cbn in C. injection C as -> _. rewrite S. reflexivity.
Qed.
Lemma runs_join w l : Forall (item w) l -> runs (join sp l) = isp l.
Proof.
  induction l as [|x [|y l] IH]; intros F; [reflexivity| |]; inversion F; subst.
  - cbn [join isp]. rewrite <- (app_nil_r x) at 1. rewrite runs_item; [reflexivity|apply H1|now apply (item_ws w)|exact I].
  - rewrite join_cons, isp_cons. rewrite runs_item; [|apply H1|now apply (item_ws w)|reflexivity]. f_equal. rewrite runs_sp; [now rewrite IH|].
    inversion H2; subst. pose proof (item_ws _ _ H3) as Q. destruct H3 as [H3 _]. destruct y as [|c y]; [congruence|]. inversion Q; subst. destruct l; exact H5.
Qed.
Lemma munge_items w l : Forall (item w) l -> munge (join sp l) = join sp l.
Proof.
  intros F. assert (G : Forall (fun c => c = " "%char \/ is_ws c = false) (join sp l)).
  { induction l as [|x [|y l] IH]; [constructor| |]; inversion F; subst; pose proof (item_ws _ _ H1) as Q; assert (Q' : Forall (fun c => c = " "%char \/ is_ws c = false) x) by (eapply Forall_impl; [|exact Q]; cbn; auto); auto.
    rewrite join_cons. apply Forall_app. split; auto. apply Forall_app. split; auto. constructor; [now left|constructor]. }
  unfold munge. assert (E : forall s j, Forall (fun c => c = " "%char \/ is_ws c = false) s -> expandtabs j s = s).
  { clear. induction s as [|c s IH]; intros j G; [reflexivity|]. inversion G; subst. cbn [expandtabs]. destruct (Nat.eqb_spec (nat_of_ascii c) 9) as [E|_].
    - exfalso. assert (c = ascii_of_nat 9) as -> by (rewrite <- E; symmetry; apply ascii_nat_embedding). destruct H1; discriminate.
    - destruct (_ || _); now rewrite IH. }
  rewrite E by exact G. clear E. induction (join sp l) as [|c s IH]; [reflexivity|]. inversion G; subst. cbn [map]. rewrite IH by auto. destruct H1 as [->|H1]; [reflexivity|now rewrite H1].
Qed.
Lemma take_items w : forall (xs : list text) (x : text) n, n + length x <= w -> exists g rest : list text, x :: xs = (x :: g) ++ rest /\ n + length (join sp (x :: g)) <= w /\
  match rest with
  | [] => take_line w n (isp (x :: xs)) = (isp (x :: g), [])
  | y :: _ => w < n + length (join sp (x :: g)) + 1 + length y /\
      (take_line w n (isp (x :: xs)) = (isp (x :: g) ++ [sp], isp rest) \/ take_line w n (isp (x :: xs)) = (isp (x :: g), sp :: isp rest))
  end.
Proof.
  induction xs as [|y ys IH]; intros x n L.
  { exists [], []. split; [reflexivity|]. split; [exact L|]. cbn. apply Nat.leb_le in L. now rewrite L. }
  rewrite isp_cons. cbn [take_line]. assert (L' := L). apply Nat.leb_le in L'. rewrite L'. change (length sp) with 1. destruct (n + length x + 1 <=? w) eqn:E1.
  - apply Nat.leb_le in E1. destruct (le_lt_dec (n + length x + 1 + length y) w) as [L2|L2].
    + destruct (IH y (n + length x + 1) L2) as (g & rest & E & B & M). exists (y :: g), rest. split; [cbn [app] in *; now rewrite E|]. rewrite join_cons. rewrite !app_length. change (length sp) with 1. split; [unfold text in *; lia|].
      rewrite isp_cons. destruct rest as [|z r]; [now rewrite M|]. destruct M as [M1 M2]. split; [unfold text in *; lia|]. destruct M2 as [M2|M2]; [left|right]; now rewrite M2.
    + exists [], (y :: ys). split; [reflexivity|]. split; [exact L|]. split; [cbn [join]; lia|]. left.
      assert (T : forall m, w < m + length y -> take_line w m (isp (y :: ys)) = ([], isp (y :: ys))). { intros m H. apply Nat.leb_gt in H. destruct ys; cbn [isp take_line]; now rewrite H. }
      rewrite T by (unfold text in *; lia). reflexivity.
  - apply Nat.leb_gt in E1. exists [], (y :: ys). split; [reflexivity|]. split; [exact L|]. split; [cbn [join]; lia|]. right. reflexivity.
Qed.
Lemma isp_last x l : exists p z, isp (x :: l) = p ++ [z] /\ In z (x :: l).
Proof.
  revert x. induction l as [|y l IH]; intros x; [exists [], x; split; [reflexivity|now left]|]. destruct (IH y) as (p & z & E & I). exists (x :: sp :: p), z. rewrite isp_cons, E. split; [reflexivity|now right].
Qed.
(** the lines are filled greedily *)
Fixpoint greedy (w : nat) (groups : list (list text)) : Prop :=
  match groups with
  | g :: more => match more with (y :: _) :: _ => w < length (join sp g ++ sp ++ y) | _ => True end /\ greedy w more
  | [] => True
  end.
Lemma wrap_items w : forall n (items : list text) fuel first (chunks : list text), length items <= n -> Forall (item w) items -> items <> [] ->
  chunks = isp items \/ (chunks = sp :: isp items /\ first = false) -> length (concat chunks) <= fuel ->
  exists groups, wrap_chunks fuel w first chunks = Some (map (join sp) groups) /\ concat groups = items /\ Forall (fun g => g <> []) groups /\ Forall (fun g => length (join sp g) <= w) groups /\ greedy w groups.
Proof.
  induction n as [|n IH]; intros items fuel first chunks LN F NE CH LF; [destruct items; [congruence|cbn in LN; lia]|].
  destruct items as [|x xs]; [congruence|]. pose proof F as F0. inversion F as [|? ? FX FXS]; subst. assert (LX : length x <= w) by apply FX. assert (X1 : 1 <= length x) by (destruct FX as [FX _]; destruct x; [congruence|cbn; lia]).
  assert (DF : exists fuel', fuel = S fuel' /\ drop_first first chunks = isp (x :: xs) /\ chunks <> [] /\ length (concat (isp (x :: xs))) <= S fuel').
  { assert (1 <= length (concat (isp (x :: xs)))) by (rewrite isp_concat; destruct xs; [cbn [join]; lia|rewrite join_cons, app_length; lia]).
    destruct CH as [->|[-> ->]].
    - destruct fuel as [|fuel]; [lia|]. exists fuel. split; auto. pose proof (item_blank _ _ FX) as B. destruct xs; cbn [isp drop_first]; rewrite B; (split; [reflexivity|split; [discriminate|exact LF]]).
    - cbn [concat] in LF. rewrite app_length in LF. destruct fuel as [|fuel]; [lia|]. exists fuel. split; auto. split; [reflexivity|]. split; [discriminate|]. lia. }
  destruct DF as (fuel' & -> & DF & CNE & LF'). cbn [wrap_chunks]. destruct chunks as [|c0 cs0]; [congruence|]. rewrite DF.
  destruct (take_items w xs x 0 LX) as (g & rest & E & B & M). cbn [Nat.add] in B, M.
  assert (FG : Forall (item w) (x :: g) /\ Forall (item w) rest) by (rewrite E in F0; now apply Forall_app in F0). destruct FG as [FG FR].
  assert (DL : drop_last (isp (x :: g)) = isp (x :: g) /\ drop_last (isp (x :: g) ++ [sp]) = isp (x :: g)).
  { unfold drop_last. split; [|rewrite rev_app_distr; cbn [rev app]; change (blank sp) with true; cbv iota; apply rev_involutive]. destruct (isp_last x g) as (p & z & EQ & IN). rewrite EQ, rev_app_distr. cbn [rev app].
    rewrite Forall_forall in FG. now rewrite (item_blank _ _ (FG _ IN)). }
  assert (NI : forall a b : list text, match isp (x :: g) with [] => a | _ => b end = b) by (destruct g; reflexivity).
  assert (G1 : exists c cs, isp (x :: g) = c :: cs) by (destruct g; cbn [isp]; eauto). destruct G1 as (c1 & cs1 & G1).
  destruct rest as [|y r].
  - rewrite M. cbn [long_word]. rewrite (proj1 DL), G1. exists [x :: g]. assert (W0 : forall f b, wrap_chunks f w b [] = Some []) by (destruct f; reflexivity). rewrite W0, <- G1, isp_concat. cbn [map concat greedy]. rewrite app_nil_r. rewrite app_nil_r in E.
    split; auto. split; auto. split; [constructor; [discriminate|constructor]|]. split; [constructor; auto|split; exact I].
  - destruct M as [M1 M2].
    assert (YW : (w <? length y) = false) by (inversion FR; subst; apply Nat.ltb_ge; apply H1).
    assert (LONG : long_word w (take_line w 0 (isp (x :: xs))) = take_line w 0 (isp (x :: xs))).
    { destruct M2 as [->| ->]; cbn [long_word]; [destruct r; cbn [isp]; rewrite YW; reflexivity|]. assert (Q : (w <? length sp) = false) by (apply Nat.ltb_ge; cbn; lia). now rewrite Q. }
    rewrite LONG. assert (TL : concat (isp (x :: xs)) = concat (fst (take_line w 0 (isp (x :: xs)))) ++ concat (snd (take_line w 0 (isp (x :: xs))))).
    { pose proof (take_spec w (isp (x :: xs)) 0 (Nat.le_0_l _)) as T. destruct (take_line w 0 (isp (x :: xs))) as [a b]. destruct T as (T & _). rewrite T at 1. apply concat_app. }
    assert (REC : forall chunks', chunks' = isp (y :: r) \/ (chunks' = sp :: isp (y :: r) /\ false = false) -> length (concat chunks') <= fuel' ->
      exists groups, wrap_chunks fuel' w false chunks' = Some (map (join sp) groups) /\ concat groups = y :: r /\ Forall (fun g => g <> []) groups /\ Forall (fun g => length (join sp g) <= w) groups /\ greedy w groups).
    { intros ch' H1 H2. apply (IH (y :: r) fuel' false ch'); auto; [|discriminate]. apply (f_equal (@length text)) in E. rewrite app_length in E. cbn [length] in E, LN |- *. lia. }
    assert (FIN : forall groups, concat groups = y :: r -> Forall (fun g => g <> []) groups -> greedy w groups -> greedy w ((x :: g) :: groups)).
    { intros groups H1 H2 H3. destruct groups as [|h more]; [discriminate H1|]. inversion H2; subst. destruct h as [|y' h]; [congruence|]. cbn in H1. injection H1 as -> _. cbn [greedy]. split; [rewrite !app_length; change (length sp) with 1; lia|exact H3]. }
    destruct M2 as [M2|M2]; rewrite M2 in TL |- *; cbn [fst snd] in TL; rewrite TL, app_length in LF'; [rewrite (proj2 DL)|rewrite (proj1 DL)]; rewrite G1.
    + destruct (REC (isp (y :: r)) (or_introl eq_refl)) as (groups & R1 & R2 & R3 & R4 & R5).
      { rewrite concat_app, app_length in LF'. cbn [concat] in LF'. rewrite app_nil_r in LF'. change (length sp) with 1 in LF'. lia. }
      rewrite R1, <- G1, isp_concat. exists ((x :: g) :: groups). cbn [map concat]. split; auto. rewrite R2. split; [now rewrite E|]. split; [constructor; auto; discriminate|]. split; [constructor; auto|]. now apply FIN.
    + destruct (REC (sp :: isp (y :: r)) (or_intror (conj eq_refl eq_refl))) as (groups & R1 & R2 & R3 & R4 & R5).
      { rewrite isp_concat in LF' at 1. assert (1 <= length (join sp (x :: g))) by (destruct g; [cbn [join]; lia|rewrite join_cons, app_length; lia]). lia. }
      rewrite R1, <- G1, isp_concat. exists ((x :: g) :: groups). cbn [map concat]. split; auto. rewrite R2. split; [now rewrite E|]. split; [constructor; auto; discriminate|]. split; [constructor; auto|]. now apply FIN.
Qed.
(** words no longer than a line, with single spaces between: no word is broken, and
    each line has as many of the next words as fit *)
Theorem C109_items : forall w items, items <> [] -> Forall (fun x => x <> [] /\ nospace x /\ length x <= w) items ->
  exists groups, wrap w (join sp items) = Some (map (join sp) groups) /\ concat groups = items /\ Forall (fun g => g <> []) groups /\
    Forall (fun l => length l <= w) (map (join sp) groups) /\
    (forall before g y h after, groups = before ++ g :: (y :: h) :: after -> w < length (join sp g ++ sp ++ y)).
Proof.
  intros w items NE F. unfold wrap. cbv zeta. rewrite (munge_items w items F), (runs_join w items F).
  destruct (wrap_items w (length items) items (S (length (join sp items))) true (isp items) (Nat.le_refl _) F NE (or_introl eq_refl)) as (groups & E & C & N & L & G); [rewrite isp_concat; lia|].
  exists groups. split; auto. split; auto. split; auto. split; [now apply Forall_map|]. clear - G. intros before. revert groups G. induction before as [|b before IH]; intros groups G g y h after ->.
  - cbn [app greedy] in G. apply G.
  - eapply IH; [|reflexivity]. cbn [app greedy] in G. apply G.
Qed.
Print Assumptions C109_items.
Example C109_items_ex : option_map (map string_of_list_ascii) (wrap 11 (join sp (map lit ["SSE=12.0"; "a=1"; "bb=2"; "ccc=3**"; "d=-4e+05"]%string)))
    = Some ["SSE=12.0"; "a=1 bb=2"; "ccc=3**"; "d=-4e+05"]%string /\
  option_map (map string_of_list_ascii) (wrap 12 (join sp (map lit ["SSE=12.0"; "a=1"; "bb=2"; "ccc=3**"; "d=-4e+05"]%string)))
    = Some ["SSE=12.0 a=1"; "bb=2 ccc=3**"; "d=-4e+05"]%string.
Proof. split; reflexivity. Qed.

(** ** an individual in the log *)
Lemma num_item num : numchars num -> nospace (lit "SSE=" ++ num).
Proof.
  intros N. apply Forall_app. split.
  - apply nospace_iff. repeat constructor.
  - eapply Forall_impl; [|exact N]. cbn beta. intros c I W. apply white_space in W. cbn [digits lit list_ascii_of_string app In] in I. repeat destruct I as [<-|I]; try discriminate W. exact I.
Qed.
(** an individual is read back from its log entry as it is wrapped, if none of its
    parts is longer than a line *)
Theorem C109_individual : forall F (tofloat : text -> option F) num x vals blank,
  Forall a_value vals -> NoDup (map fst vals) -> numchars num -> num <> [] -> tofloat num = Some x -> spaces blank ->
  length (lit "SSE=" ++ num) <= 120 -> Forall (fun p => length (fst p) + 1 + length (fst (snd p)) + length (snd (snd p)) <= 120) vals ->
  exists lines, pretty_lines (lit "SSE=" ++ num) vals = Some lines /\ Forall (fun l => length l <= 120) lines /\
    filerator tofloat (repr_lines lines ++ [blank]) = ([(x, readable vals)], Finished).
Proof.
  intros F tofloat num x vals blank V D N NE T B L LV.
  destruct (C109_items 120 (pretty_parts (lit "SSE=" ++ num) vals)) as (groups & E & C & G & LL & _); [discriminate| |].
  - unfold pretty_parts. constructor; [split; [discriminate|]; split; [now apply num_item|exact L]|]. apply Forall_map. rewrite Forall_forall in V, LV |- *. intros p I. destruct (value_nospace p (V _ I)) as [V1 V2].
    split; [exact V2|]. split; [now apply nospace_iff|]. specialize (LV _ I). cbv beta in LV. rewrite !app_length. change (length (txt "=")) with 1. unfold text in *. lia.
  - exists (map (join sp) groups). split; [exact E|]. split; [exact LL|]. now apply (C64_individual F tofloat groups num x vals blank).
Qed.
Print Assumptions C109_individual.
Fixpoint many (n : nat) : list found := match n with O => [] | S n => (lit "p" ++ repeat "q"%char n, (lit "1.5", lit "*")) :: many n end.
Example C109_individual_ex :
  match pretty_lines (lit "SSE=" ++ lit "12.0") (many 20) with
  | Some lines => map (@length _) lines = [106; 116; 114] /\
    map (@length _) (repr_lines lines) = [107; 116; 115] /\ filerator ex_float (repr_lines lines ++ [[]]) = ([(12, many 20)], Finished)
  | None => False
  end.
Proof. vm_compute. repeat split. Qed.
(** a name of [n] letters *)
Definition long_name (n : nat) : text := repeat "p"%char n.
Lemma long_ok n v : 1 <= n -> a_number v -> Forall a_value [(long_name n, (v, []))].
Proof.
  intros H V. apply Forall_cons; [|apply Forall_nil]. split; [|split; [exact V|apply Forall_nil]]. destruct n as [|n]; [lia|]. exists "p"%char, (repeat "p"%char n). split; [reflexivity|].
  assert (I : In "p"%char letters) by (apply existsb_in; reflexivity). split; [|apply Forall_forall; intros c C; apply repeat_spec in C as ->]; apply in_or_app; now left.
Qed.
Lemma ex_number : a_number (lit "4").
Proof. exists [], "4"%char, []. split; [reflexivity|]. split; [now left|]. split; [apply existsb_in; reflexivity|constructor]. Qed.
(** the brackets around an individual are not counted: its lines in the log can have
    two characters more *)
Theorem C109_brackets_refuted : exists num vals lines, numchars num /\ num <> [] /\ Forall a_value vals /\ NoDup (map fst vals) /\
  pretty_lines (lit "SSE=" ++ num) vals = Some lines /\ map (@length _) (repr_lines lines) = [122].
Proof.
  exists (lit "12.0"), [(long_name 109, (lit "4", []))]. eexists. split; [repeat constructor; apply existsb_in; reflexivity|]. split; [discriminate|]. split; [apply long_ok; [lia|exact ex_number]|]. split; [constructor; [intros []|constructor]|].
  split; vm_compute; reflexivity.
Qed.
Print Assumptions C109_brackets_refuted.
(** a name too long for a line is cut, and its value is then read under the rest of
    the name *)
Theorem C109_long_refuted : exists vals lines, Forall a_value vals /\ NoDup (map fst vals) /\ pretty_lines (lit "SSE=12.0") vals = Some lines /\
  forall F (tofloat : text -> option F) x, tofloat (lit "12.0") = Some x ->
    filerator tofloat (repr_lines lines ++ [[]]) = ([(x, [(long_name 19, (lit "4", []))])], Finished) /\ vals = [(long_name 130, (lit "4", []))].
Proof.
  exists [(long_name 130, (lit "4", []))]. eexists. split; [apply long_ok; [lia|exact ex_number]|]. split; [constructor; [intros []|constructor]|].
  split; [vm_compute; reflexivity|]. intros F tofloat x T. split; [|reflexivity]. cbn [lit list_ascii_of_string] in T. vm_compute. rewrite T. reflexivity.
Qed.
Print Assumptions C109_long_refuted.

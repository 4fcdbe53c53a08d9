(** * Properties of lgg as a program: C112 *)
From Coq Require Import ZArith Ascii String List Bool Arith Lia Permutation Sorted Reals Lra.
From Verif Require Import Flt FltMore Py ParamModel ParamProofs RankModel RankProofs LogModel LogProofs LogProps WrapModel WrapProps LggModel LggProofs LggProps LggMainModel.
Import ListNotations.
Local Open Scope nat_scope.
#[local] Arguments fltb : simpl never.
#[local] Arguments fleb : simpl never.

(** ** texts and strings *)
Lemma txt_str : forall t, list_ascii_of_string (string_of_list_ascii t) = t. Proof. apply list_ascii_of_string_of_list_ascii. Qed.
Lemma str_txt : forall s, string_of_list_ascii (list_ascii_of_string s) = s. Proof. apply string_of_list_ascii_of_string. Qed.
Lemma txt_app : forall a b, list_ascii_of_string (a ++ b) = (list_ascii_of_string a ++ list_ascii_of_string b)%list.
Proof. induction a as [|c a IH]; intros b; simpl; [reflexivity|]. now rewrite IH. Qed.

(** ** what the claims are stated with *)
(** [n] blanks *)
Definition blanks (n : nat) : string := string_of_list_ascii (repeat " "%char n).
(** at the right of a column of ten *)
Definition right (x : string) : string := (blanks (10 - String.length x) ++ x)%string.
(** a value with its stars in a column of its own *)
Definition value_text (c : string * nat) : string := (right (fst c) ++ string_of_list_ascii (repeat "*"%char (snd c)) ++ blanks (3 - snd c))%string.
Fixpoint all_text (l : list string) : string := match l with [] => ""%string | x :: l => (x ++ all_text l)%string end.
(** [line] is the line for the entry [e] under the columns [names] *)
Definition line_for (tofloat : text -> option f64) (fmt : f64 -> string) (names : list string) (e : f64 * list found) (line : string) : Prop :=
  exists cells trail,
    Forall2 (fun n c => exists v st x, In (lit n, (v, st)) (snd e) /\ tofloat v = Some x /\ c = (fmt x, List.length st)) names cells /\
    LogProps.spaces (lit trail) /\ (line ++ trail = right (fmt (fst e)) ++ blanks 3 ++ all_text (map value_text cells))%string /\
    (forall a c, line = (a ++ String c "")%string -> ~ white c).
(** the names, each at the right of its column, with three blanks between *)
Fixpoint title (names : list string) : string := match names with [] => ""%string | n :: names => (blanks 3 ++ right n ++ title names)%string end.
(** the printed table: an empty line, the heading, dashes, the lines, an empty line *)
Definition table (names lines : list string) : list string :=
  let h := (right "SSE" ++ title names)%string in
  ([""; h; string_of_list_ascii (repeat "-"%char (String.length h + 2))]%string ++ lines ++ [""%string])%list.
(** the name [n] is in the entry [e] and matched by one of the patterns *)
Definition asked (glob : string -> string -> bool) (pats : list string) (e : f64 * list found) (n : string) : Prop :=
  In (lit n) (map fst (snd e)) /\ exists p, In p pats /\ glob n p = true.
(** the entry [e] has a number under the name [n] *)
Definition has_number (tofloat : text -> option f64) (e : f64 * list found) (n : string) : Prop :=
  exists v st x, In (lit n, (v, st)) (snd e) /\ tofloat v = Some x.
(** float() makes no NaN of digits, points, e, E and signs *)
Definition no_nans (tofloat : text -> option f64) : Prop := forall t x, numchars t -> tofloat t = Some x -> isnan x = false.

(** ** the lines *)
Lemma spaces_blanks : forall n, LggModel.spaces n = blanks n.
Proof. intros n. unfold LggModel.spaces, blanks. induction n as [|n IH]; [reflexivity|]. cbn [repeat]. rewrite concat_cons. destruct n; [reflexivity|]. cbn [repeat] in *. rewrite IH. reflexivity. Qed.
Lemma rep_stars : forall n, String.concat "" (repeat "*"%string n) = string_of_list_ascii (repeat "*"%char n).
Proof. intros n. induction n as [|n IH]; [reflexivity|]. cbn [repeat]. rewrite concat_cons. destruct n; [reflexivity|]. cbn [repeat] in *. rewrite IH. reflexivity. Qed.
Lemma rep_dashes : forall n, String.concat "" (repeat "-"%string n) = string_of_list_ascii (repeat "-"%char n).
Proof. intros n. induction n as [|n IH]; [reflexivity|]. cbn [repeat]. rewrite concat_cons. destruct n; [reflexivity|]. cbn [repeat] in *. rewrite IH. reflexivity. Qed.
Lemma rj_right : forall x, rj 10 x = right x.
Proof. intros x. unfold rj, right. now rewrite spaces_blanks. Qed.
Lemma cell_value : forall c, LggModel.cell 10 3 c = value_text c.
Proof. intros c. unfold LggModel.cell, value_text. now rewrite rj_right, rep_stars, spaces_blanks. Qed.
Lemma concat_all : forall l, String.concat "" l = all_text l.
Proof. induction l as [|x l IH]; [reflexivity|]. rewrite concat_cons. cbn [all_text]. rewrite <- IH. destruct l; [now rewrite app_nil_s|reflexivity]. Qed.
Lemma heading_title : forall names, heading 10 3 names = (right "SSE" ++ title names)%string.
Proof.
  intros names. unfold heading. rewrite spaces_blanks. change (map (rj 10) ("SSE"%string :: names)) with (rj 10 "SSE" :: map (rj 10) names). rewrite <- rj_right. generalize (rj 10 "SSE"). induction names as [|n names IH]; intros s; [cbn [map title]; rewrite app_nil_s; reflexivity|].
  cbn [map]. rewrite concat_cons. cbv beta iota. rewrite (IH (rj 10 n)). cbn [title]. now rewrite rj_right.
Qed.
Lemma rstrip_s_split : forall s, exists trail, LogProps.spaces (lit trail) /\ (rstrip_s s ++ trail = s)%string /\ forall a c, rstrip_s s = (a ++ String c "")%string -> ~ white c.
Proof.
  intros s. unfold rstrip_s. assert (X : forall t : text, exists tr, LogProps.spaces tr /\ rev (lstrip (rev t)) ++ tr = t /\ forall a c, rev (lstrip (rev t)) = a ++ [c] -> ~ white c).
  { intros t. rewrite <- (rev_involutive t). generalize (rev t). clear t. intros t. rewrite rev_involutive. induction t as [|c t IH].
    - exists []. split; [constructor|]. split; [reflexivity|]. intros a c H. destruct a; discriminate.
    - cbn [lstrip]. destruct (is_space c) eqn:E.
      + destruct IH as (tr & A & B & C). exists (tr ++ [c]). split; [apply Forall_app; split; [exact A|constructor; [now apply space_iff|constructor]]|]. split; [|exact C]. cbn [rev]. rewrite app_assoc, B. reflexivity.
      + exists []. split; [constructor|]. split; [now rewrite app_nil_r|]. intros a d H. cbn [rev] in H. apply app_inj_tail in H as [_ <-]. intros W. apply space_iff in W. congruence. }
  destruct (X (list_ascii_of_string s)) as (tr & A & B & C). exists (string_of_list_ascii tr). split; [unfold lit; rewrite txt_str; exact A|]. split.
  - rewrite <- (str_txt s) at 2. revert B. generalize (rev (lstrip (rev (list_ascii_of_string s)))). intros l <-. clear. induction l as [|d l IH]; [reflexivity|]. cbn. now rewrite IH.
  - intros a c H. apply (C (list_ascii_of_string a) c). apply (f_equal list_ascii_of_string) in H. rewrite txt_str, txt_app in H. exact H.
Qed.

(** ** names *)
Lemma name_word : forall n, a_name n -> all_s is_word (string_of_list_ascii n) = true.
Proof.
  assert (W : forall c, is_wordc c = is_word c) by (intros [[] [] [] [] [] [] [] []]; reflexivity).
  assert (L : forall l, Forall (fun c => In c (letters ++ digits ++ lit "_")) l -> all_s is_word (string_of_list_ascii l) = true).
  { induction 1 as [|c l H _ IH]; [reflexivity|]. cbn. apply wordc_iff in H. rewrite W in H. rewrite H. exact IH. }
  intros n (c & r & -> & A & B). apply L. constructor; auto. apply in_or_app. now left.
Qed.
Lemma setup_id : forall l, Forall (fun n => all_s is_word n = true) l -> setupNames l = l.
Proof.
  induction 1 as [|n l H _ IH]; [reflexivity|]. change (n :: l) with ([n] ++ l). rewrite C55_concat, IH. f_equal. apply C55_other.
  - intros p d1 d2 _ _ _ _ _ _ ->. rewrite !LggProofs.all_app in H. cbn in H. rewrite !andb_false_r in H. discriminate.
  - intros p c1 c2 _ _ _ _ ->. rewrite !LggProofs.all_app in H. cbn in H. rewrite !andb_false_r in H. discriminate.
Qed.
Lemma line_names : forall ts s, a_line ts s -> Forall (fun p => a_name (fst p)) (params ts).
Proof.
  induction 1 as [tr|gap t ts rest G I H IH S]; [constructor|]. destruct t as [n v st gt|w]; cbn [params]; auto. constructor; auto. apply I.
Qed.
Lemma log_entries : forall tofloat es lines, a_log tofloat es lines ->
  Forall (fun e : f64 * list found => Forall (fun p => a_name (fst p)) (snd e) /\ NoDup (map fst (snd e)) /\ exists num, numchars num /\ tofloat num = Some (fst e)) es.
Proof.
  intros tofloat es lines H.
  assert (E : forall e ls, an_entry tofloat e ls -> Forall (fun p => a_name (fst p)) (snd e) /\ NoDup (map fst (snd e)) /\ exists num, numchars num /\ tofloat num = Some (fst e)).
  { intros e ls (pre & num & rest & ts & tss & more & _ & _ & N & _ & T & L & _ & M & -> & D). split; [|split; eauto]. apply Forall_app. split; [eapply line_names; eauto|].
    clear - M. induction M as [|ts l tss more [A _] _ IH]; cbn [flat_map]; [constructor|]. apply Forall_app. split; auto. eapply line_names; eauto. }
  induction H; auto; constructor; eauto.
Qed.

(** ** the rows *)
Lemma tget_in : forall A (d : tdict A) k v, NoDup (map fst d) -> (tget d k = Some v <-> In (k, v) d).
Proof.
  intros A d k v. induction d as [|[k' v'] d IH]; intros N; cbn [tget]; [split; [discriminate|intros []]|]. inversion N as [|? ? N1 N2]; subst. specialize (IH N2). destruct (text_eqb k' k) eqn:E.
  - apply text_eqb_eq in E as ->. split; [intros H; injection H as ->; now left|]. intros [H|H]; [congruence|]. exfalso. apply N1. apply in_map_iff. exists (k, v). auto.
  - rewrite IH. split; [now right|]. intros [H|H]; auto. exfalso. injection H as -> ->. assert (X : text_eqb k k = true) by now apply text_eqb_eq. congruence.
Qed.
Section P.
Variables (argsort : list f64 -> list nat) (glob : string -> string -> bool) (tofloat : text -> option f64) (fmt : f64 -> string) (expanduser : string -> string).
Notation num_at pd n x := (exists v st, tget pd (lit n) = Some (v, st) /\ tofloat v = Some (fst x) /\ snd x = List.length st).
Lemma row_ok : forall names pd v st, main_row tofloat names pd = Ok (v, st) ->
  List.length v = List.length names /\ List.length st = List.length names /\ Forall2 (fun n x => num_at pd n x) names (combine v st).
Proof.
  induction names as [|n names IH]; intros pd v st; cbn [main_row]; [intros H; injection H as <- <-; repeat constructor|].
  destruct (tget pd (list_ascii_of_string n)) as [[t s]|] eqn:E; [|discriminate]. destruct (tofloat t) as [x|] eqn:T; [|discriminate]. destruct (main_row tofloat names pd) as [[v' st']|] eqn:ER; cbn [bind]; [|discriminate].
  intros H. injection H as <- <-. destruct (IH pd v' st' ER) as (A & B & C). cbn [fst snd List.length combine]. split; [lia|]. split; [lia|]. constructor; auto. exists t, s. auto.
Qed.
Lemma row_iff : forall names pd, (exists r, main_row tofloat names pd = Ok r) <-> forall n, In n names -> exists v st x, tget pd (lit n) = Some (v, st) /\ tofloat v = Some x.
Proof.
  induction names as [|n names IH]; intros pd; cbn [main_row]; [split; [intros _ n []|eauto]|]. specialize (IH pd). destruct (tget pd (list_ascii_of_string n)) as [[t s]|] eqn:E.
  - destruct (tofloat t) as [x|] eqn:T.
    + destruct (main_row tofloat names pd) as [r|e]; cbn [bind].
      * split; [|eauto]. intros _ m [<-|I]; [exists t, s, x; auto|]. apply IH; eauto.
      * split; [intros [r H]; discriminate|]. intros H. destruct IH as [_ IH]. destruct IH as [r R]; [intros m I; apply H; now right|discriminate].
    + split; [intros [r H]; discriminate|]. intros H. destruct (H n (or_introl eq_refl)) as (v & st & x & A & B). unfold lit in A. rewrite E in A. injection A as <- <-. congruence.
  - split; [intros [r H]; discriminate|]. intros H. destruct (H n (or_introl eq_refl)) as (v & st & x & A & B). unfold lit in A. congruence.
Qed.
Lemma row_raise : forall names pd e, main_row tofloat names pd = Raise e -> e = KeyError \/ e = ValueError.
Proof.
  induction names as [|n names IH]; intros pd e; cbn [main_row]; [discriminate|]. destruct (tget pd _) as [[t s]|]; [|intros H; injection H as <-; auto]. destruct (tofloat t); [|intros H; injection H as <-; auto].
  destruct (main_row tofloat names pd) as [r|e'] eqn:E; cbn [bind]; [discriminate|]. intros H. injection H as <-. eauto.
Qed.
Definition row_of (names : list string) (e : f64 * list found) (r : row) : Prop :=
  rSSE r = fst e /\ main_row tofloat names (snd e) = Ok (rvals r, rstars r).
Lemma rows_ok : forall names es rows, main_rows tofloat names es Finished = Ok rows -> Forall2 (row_of names) es rows.
Proof.
  intros names. induction es as [|[s pd] es IH]; intros rows; cbn [main_rows]; [intros H; injection H as <-; constructor|]. destruct (main_row tofloat names pd) as [[v st]|] eqn:E; cbn [bind]; [|discriminate].
  destruct (main_rows tofloat names es Finished) as [l|]; cbn [bind]; [|discriminate]. intros H. injection H as <-. constructor; auto. split; auto.
Qed.
Lemma rows_iff : forall names es, (exists rows, main_rows tofloat names es Finished = Ok rows) <-> forall e, In e es -> exists r, main_row tofloat names (snd e) = Ok r.
Proof.
  intros names. induction es as [|[s pd] es IH]; cbn [main_rows]; [split; [intros _ e []|eauto]|]. destruct (main_row tofloat names pd) as [r|e'] eqn:E; cbn [bind].
  - destruct (main_rows tofloat names es Finished) as [l|e']; cbn [bind].
    + split; [|eauto]. intros _ e [<-|I]; [eauto|]. apply IH; eauto.
    + split; [intros [l H]; discriminate|]. intros H. destruct IH as [_ IH]. destruct IH as [l L]; [intros e I; apply H; now right|discriminate].
  - split; [intros [l H]; discriminate|]. intros H. destruct (H (s, pd) (or_introl eq_refl)) as [r R]. cbn [snd] in R. congruence.
Qed.
Lemma rows_raise : forall names es e, main_rows tofloat names es Finished = Raise e -> e = KeyError \/ e = ValueError.
Proof.
  intros names. induction es as [|[s pd] es IH]; intros e; cbn [main_rows]; [discriminate|]. destruct (main_row tofloat names pd) as [r|e'] eqn:E; cbn [bind].
  - destruct (main_rows tofloat names es Finished) as [l|e']; cbn [bind]; [discriminate|]. intros H. injection H as <-. auto.
  - intros H. injection H as <-. eapply row_raise; eauto.
Qed.

Lemma row_line_for : forall names e r, NoDup (map fst (snd e)) -> row_of names e r ->
  line_for tofloat fmt names e (rstrip_s (LggModel.table_row 10 3 (fmt (rSSE r)) (combine (map fmt (rvals r)) (rstars r)))).
Proof.
  intros names e r N [S R]. apply row_ok in R as (LV & LS & F). destruct (rstrip_s_split (LggModel.table_row 10 3 (fmt (rSSE r)) (combine (map fmt (rvals r)) (rstars r)))) as (tr & A & B & C).
  exists (combine (map fmt (rvals r)) (rstars r)), tr. split; [|split; [exact A|split; [|exact C]]].
  - clear - F LV LS N. revert F LV LS. generalize (rvals r) (rstars r). induction names as [|n names IH]; intros v st F LV LS.
    + destruct v; [|discriminate]. constructor.
    + destruct v as [|x v]; [discriminate|]. destruct st as [|k st]; [discriminate|]. cbn [map combine] in *. inversion F as [|? ? ? ? (t & s & G & T & K) F']; subst. constructor; [|apply IH; auto].
      cbn [fst snd] in *. exists t, s, x. split; [now apply tget_in|]. split; [auto|now rewrite K].
  - rewrite B, S. unfold LggModel.table_row. rewrite rj_right, spaces_blanks, concat_all. f_equal. f_equal. f_equal. apply map_ext. apply cell_value.
Qed.

(** the outcome for a log with no table at the end *)
Lemma grep_log : forall lines es args, is_argsort argsort -> no_nans tofloat -> a_log tofloat es lines -> no_table lines -> es <> [] ->
  forall names, grepper_names glob (map view es) args = Ok names -> Forall (fun n => all_s is_word n = true) names ->
  (exists rows, grep_file argsort glob tofloat fmt lines args = Prints (table names rows) /\ 1 <= List.length rows <= 40 /\
     Forall (fun line => exists e, In e es /\ line_for tofloat fmt names e line) rows /\
     (List.length rows < 40 \/ List.length es <= 40 -> exists before line e, rows = before ++ [line] /\ In e es /\ line_for tofloat fmt names e line /\ forall x, In x es -> fleb (fst e) (fst x) = true) /\
     forall e n, In e es -> In n names -> has_number tofloat e n) \/
  exists e, (e = KeyError \/ e = ValueError) /\ grep_file argsort glob tofloat fmt lines args = Debugger e /\
     exists x n, In x es /\ In n names /\ ~ has_number tofloat x n.
Proof.
  intros lines es args AS NN L NT NE names G W. assert (LE := log_entries _ _ _ L). rewrite Forall_forall in LE. unfold grep_file. rewrite (C64_log f64 tofloat es lines L NT).
  assert (MN : main_names glob es Finished args = Ok names) by (unfold main_names; destruct args, es; auto). rewrite MN, (setup_id names W). clear MN.
  assert (HN : forall e n, In e es -> (has_number tofloat e n <-> exists v st x, tget (snd e) (lit n) = Some (v, st) /\ tofloat v = Some x)).
  { intros e n I. destruct (LE e I) as (_ & D & _). unfold has_number. split; intros (v & st & x & A & B); exists v, st, x; split; auto; now apply tget_in. }
  destruct (main_rows tofloat names es Finished) as [rows|e] eqn:E; cbn [bind].
  - assert (F := rows_ok _ _ _ E). assert (NR : rows <> []) by (intros ->; inversion F; subst; congruence).
    assert (RE : forall r, In r rows -> exists e, In e es /\ row_of names e r).
    { clear - F. induction F as [|e r es rows A F IH]; intros r' []; [subst; exists e; simpl; auto|]. destruct (IH r' H) as (e' & B & C). exists e'. simpl. auto. }
    assert (ER : forall e, In e es -> exists r, In r rows /\ row_of names e r).
    { clear - F. induction F as [|e r es rows A F IH]; intros e' []; [subst; exists r; simpl; auto|]. destruct (IH e' H) as (r' & B & C). exists r'. simpl. auto. }
    assert (RN : forall r, In r rows -> isnan (rSSE r) = false).
    { intros r I. destruct (RE r I) as (e & J & (S & _)). destruct (LE e J) as (_ & _ & num & A & B). rewrite S. eapply NN; eauto. }
    destruct (C54_trim argsort rows def_ratio def_diff def_rows AS NR RN) as (sig & k0 & best & cut & KS & TE & ES & _ & KL & C & _ & HD & _ & V & _).
    set (kept := map (fun k => nth k rows row0) KS) in *. change (map (fun k : nat => nth k rows row0) KS) with kept in TE.
    assert (KI : forall r, In r kept -> In r rows). { intros r I. apply in_map_iff in I as (k & <- & I). apply nth_In, V. rewrite ES. apply in_or_app. right. now apply in_rev in I. }
    rewrite TE. left. exists (map (fun r => rstrip_s (LggModel.table_row 10 3 (fmt (rSSE r)) (combine (map fmt (rvals r)) (rstars r)))) kept).
    assert (LF : forall r, In r rows -> exists e, In e es /\ rSSE r = fst e /\ line_for tofloat fmt names e (rstrip_s (LggModel.table_row 10 3 (fmt (rSSE r)) (combine (map fmt (rvals r)) (rstars r))))).
    { intros r I. destruct (RE r I) as (e & J & R). exists e. split; auto. split; [apply R|]. apply row_line_for; auto. apply (LE e J). }
    split; [unfold make_lines, table; rewrite heading_title, rep_dashes; reflexivity|]. split; [|split; [|split]].
    + rewrite map_length. unfold kept. rewrite map_length. split; [|apply KL; unfold def_rows; lia]. destruct KS; [|simpl; lia]. exfalso. simpl in ES. rewrite app_nil_r in ES. subst cut. destruct C as [->|C]; discriminate.
    + apply Forall_map, Forall_forall. intros r I. destruct (LF r (KI r I)) as (e & J & _ & K). eauto.
    + intros SH. destruct (C54_best_last argsort rows def_ratio def_diff def_rows kept AS NR RN TE) as (l & b & EK & M).
      { rewrite map_length in SH. destruct SH as [SH|SH]; [left; exact SH|right; right]. assert (X : List.length es = List.length rows) by (clear - F; induction F; cbn; auto). rewrite <- X. exact SH. }
      rewrite EK, map_app. cbn [map]. assert (IB : In b rows) by (apply KI; rewrite EK; apply in_or_app; right; now left). destruct (LF b IB) as (e & J & S & K). eexists _, _, e. split; [reflexivity|]. split; auto. split; auto.
      intros x I. destruct (ER x I) as (r & Ir & (Sx & _)). rewrite <- Sx, <- S. auto.
    + intros e n I J. apply HN; auto. destruct (ER e I) as (r & _ & (_ & R)). assert (X : exists r, main_row tofloat names (snd e) = Ok r) by eauto. rewrite row_iff in X. auto.
  - right. exists e. split; [eapply rows_raise; eauto|]. split; auto.
    assert (X : ~ exists rows, main_rows tofloat names es Finished = Ok rows) by (intros [r R]; congruence). rewrite rows_iff in X.
    assert (D : forall e : f64 * list found, (exists r, main_row tofloat names (snd e) = Ok r) \/ ~ exists r, main_row tofloat names (snd e) = Ok r) by (intros e'; destruct (main_row tofloat names (snd e')); [left; eauto|right; intros [r R]; discriminate]).
    assert (Y : exists x, In x es /\ ~ exists r, main_row tofloat names (snd x) = Ok r).
    { clear - X D. induction es as [|x l IH]; [exfalso; apply X; intros ? []|]. destruct (D x) as [A|A]; [|exists x; split; [now left|auto]]. destruct IH as (y & I & B); [|exists y; split; [now right|auto]]. intros H. apply X. intros y [<-|I]; auto. }
    destruct Y as (x & I & Y). exists x. rewrite row_iff in Y.
    assert (DN : forall n, has_number tofloat x n \/ ~ has_number tofloat x n).
    { intros n. destruct (LE x I) as (_ & ND & _). destruct (tget (snd x) (lit n)) as [[v st]|] eqn:Tg.
      - destruct (tofloat v) as [y|] eqn:Ty; [left; exists v, st, y; split; [now apply tget_in|auto]|]. right. intros (v' & st' & y & A & B). apply tget_in in A; auto. rewrite Tg in A. injection A as -> ->. congruence.
      - right. intros (v' & st' & y & A & B). apply tget_in in A; auto. congruence. }
    assert (Z : forall l, (exists n, In n l /\ ~ has_number tofloat x n) \/ forall n, In n l -> has_number tofloat x n).
    { induction l as [|n l [(m & A & B)|A]]; [right; intros ? []|left; exists m; split; [now right|auto]|]. destruct (DN n) as [B|B]; [right; intros m [<-|J]; auto|left; exists n; split; [now left|auto]]. }
    destruct (Z names) as [(n & A & B)|A]; [exists n; auto|]. exfalso. apply Y. intros n J. apply HN; auto.
Qed.
End P.

(** ** C112 *)
Lemma view_keys : forall e : f64 * list found, map fst (snd (view e)) = map string_of_list_ascii (map fst (snd e)).
Proof. intros e. unfold view. cbn [snd]. rewrite !map_map. reflexivity. Qed.
Lemma str_inj : forall a b, string_of_list_ascii a = string_of_list_ascii b -> a = b.
Proof. intros a b H. rewrite <- (txt_str a), <- (txt_str b). now rewrite H. Qed.
(** which file is read: the first argument if it has a dot, else pfinder.log in the
    home directory; nothing else matters *)
Theorem C112_file : forall argsort glob tofloat fmt expanduser fs argv,
  exists name args, (argv = name :: args /\ In "."%char (lit name) \/ args = argv /\ name = "~/pfinder.log"%string /\ forall a l, argv = a :: l -> ~ In "."%char (lit a)) /\
    (fs (expanduser name) = None -> lgg_main argsort glob tofloat fmt expanduser fs argv = NoFile (expanduser name)) /\
    (forall lines, fs (expanduser name) = Some lines ->
       (forall p, lgg_main argsort glob tofloat fmt expanduser fs argv <> NoFile p) /\
       forall fs', fs' (expanduser name) = Some lines -> lgg_main argsort glob tofloat fmt expanduser fs' argv = lgg_main argsort glob tofloat fmt expanduser fs argv).
Proof.
  intros argsort glob tofloat fmt expanduser fs argv. exists (fst (main_args argv)), (snd (main_args argv)). split.
  - destruct argv as [|a l]; cbn [main_args]; [right; split; [reflexivity|]; split; [reflexivity|]; discriminate|]. destruct (has_dot a) eqn:H; cbn [fst snd].
    + left. split; auto. unfold has_dot in H. now apply existsb_in.
    + right. split; auto. split; auto. intros a' l' Q. injection Q as <- <-. intros I. apply existsb_in in I. unfold has_dot, lit in *. congruence.
  - unfold lgg_main. destruct (main_args argv) as [name args]. cbn [fst snd]. split; [intros ->; reflexivity|]. intros lines ->. split; [|intros fs' ->; reflexivity]. intros p. unfold grep_file. destruct (filerator tofloat lines) as [es f]. destruct f; try discriminate.
    + destruct (main_names glob es Finished args); [|discriminate]. destruct (bind _ _); discriminate.
    + destruct (main_names glob es (Failed e) args); [|discriminate]. destruct (bind _ _); discriminate.
Qed.
Print Assumptions C112_file.
(** the program comes to an end, whatever the file *)
Theorem C112_ends : forall argsort glob tofloat fmt expanduser fs argv, lgg_main argsort glob tofloat fmt expanduser fs argv <> Endless.
Proof.
  intros argsort glob tofloat fmt expanduser fs argv. unfold lgg_main. destruct (main_args argv) as [name args]. destruct (fs (expanduser name)) as [lines|]; [|discriminate]. unfold grep_file. assert (E := C64_ends f64 tofloat lines). destruct (filerator tofloat lines) as [es f]. cbn [snd] in E. destruct f; [| |congruence].
  - destruct (main_names glob es Finished args); [|discriminate]. destruct (bind _ _); discriminate.
  - destruct (main_names glob es (Failed e) args); [|discriminate]. destruct (bind _ _); discriminate.
Qed.
Print Assumptions C112_ends.

(** with patterns: the names of the first entry that are matched, sorted, in columns;
    a table is printed if every entry has a number under every such name, and nothing
    is printed otherwise.  Each line is for an entry of the log and, unless more than
    40 lines compete, the last is for an entry with the lowest SSE *)
Theorem C112_patterns : forall argsort glob tofloat fmt expanduser fs file pats lines e0 es,
  is_argsort argsort -> no_nans tofloat -> In "."%char (lit file) -> fs (expanduser file) = Some lines ->
  a_log tofloat (e0 :: es) lines -> no_table lines -> pats <> [] ->
  exists names, Sorted sle names /\ NoDup names /\ (forall n, In n names <-> asked glob pats e0 n) /\
  ((forall e n, In e (e0 :: es) -> asked glob pats e0 n -> has_number tofloat e n) ->
   exists rows, lgg_main argsort glob tofloat fmt expanduser fs (file :: pats) = Prints (table names rows) /\ 1 <= List.length rows <= 40 /\
     Forall (fun line => exists e, In e (e0 :: es) /\ line_for tofloat fmt names e line) rows /\
     (List.length rows < 40 \/ List.length (e0 :: es) <= 40 -> exists before line e, rows = before ++ [line] /\ In e (e0 :: es) /\ line_for tofloat fmt names e line /\
        forall x, In x (e0 :: es) -> fleb (fst e) (fst x) = true)) /\
  (forall e n, In e (e0 :: es) -> asked glob pats e0 n -> ~ has_number tofloat e n ->
   exists x, (x = KeyError \/ x = ValueError) /\ lgg_main argsort glob tofloat fmt expanduser fs (file :: pats) = Debugger x).
Proof.
  intros argsort glob tofloat fmt expanduser fs file pats lines e0 es AS NN HD FS L NT NP.
  assert (LE := log_entries _ _ _ L). rewrite Forall_forall in LE. destruct (LE e0 (or_introl eq_refl)) as (A0 & D0 & _).
  destruct (C60_names glob (view e0) (map view es) pats NP) as (names & G & S & ND & IN).
  { rewrite view_keys. apply FinFun.Injective_map_NoDup; auto. intros a b. apply str_inj. }
  assert (IN' : forall n, In n names <-> asked glob pats e0 n).
  { intros n. rewrite IN, view_keys. unfold asked. assert (X : In n (map string_of_list_ascii (map fst (snd e0))) <-> In (lit n) (map fst (snd e0))).
    - rewrite in_map_iff. split; [intros (t & <- & I); unfold lit; now rewrite txt_str|]. intros I. exists (lit n). split; auto. apply str_txt.
    - now rewrite X. }
  assert (W : Forall (fun n => all_s is_word n = true) names).
  { apply Forall_forall. intros n I. apply IN' in I as (I & _). rewrite <- (str_txt n). apply name_word. apply in_map_iff in I as (p & E & I). change (list_ascii_of_string n) with (lit n). rewrite <- E. rewrite Forall_forall in A0. auto. }
  exists names. split; auto. split; auto. split; auto.
  assert (M : lgg_main argsort glob tofloat fmt expanduser fs (file :: pats) = grep_file argsort glob tofloat fmt lines pats).
  { unfold lgg_main. cbn [main_args]. assert (X : has_dot file = true) by now apply existsb_in. rewrite X. now rewrite FS. }
  rewrite M. destruct (grep_log argsort glob tofloat fmt lines (e0 :: es) pats AS NN L NT ltac:(discriminate) names G W) as [(rows & P & A & B & C & H)|(x & X & D & y & n & I & J & K)].
  - split; [intros _; exists rows; auto|]. intros e n I J K. exfalso. apply K. apply H; auto. now apply IN'.
  - split; [intros H; exfalso; apply K; apply H; auto; now apply IN'|]. intros. exists x. auto.
Qed.
Print Assumptions C112_patterns.
(** without patterns: the names with a star in one of the four entries with the
    lowest SSEs *)
Theorem C112_starred : forall argsort glob tofloat fmt expanduser fs file lines es,
  is_argsort argsort -> no_nans tofloat -> In "."%char (lit file) -> fs (expanduser file) = Some lines ->
  a_log tofloat es lines -> no_table lines -> es <> [] -> ForallOrdPairs (fun a b => feqb (fst a) (fst b) = false) es ->
  exists names, Sorted sle names /\ NoDup names /\
  (forall n, In n names <-> exists e v st, In e es /\ In (lit n, (v, st)) (snd e) /\ st <> [] /\ List.length (filter (fun x => fltb (fst x) (fst e)) es) < 4) /\
  ((forall e n, In e es -> In n names -> has_number tofloat e n) ->
   exists rows, lgg_main argsort glob tofloat fmt expanduser fs [file] = Prints (table names rows) /\ 1 <= List.length rows <= 40 /\
     Forall (fun line => exists e, In e es /\ line_for tofloat fmt names e line) rows) /\
  (forall e n, In e es -> In n names -> ~ has_number tofloat e n ->
   exists x, (x = KeyError \/ x = ValueError) /\ lgg_main argsort glob tofloat fmt expanduser fs [file] = Debugger x).
Proof.
  intros argsort glob tofloat fmt expanduser fs file lines es AS NN HD FS L NT NE DS.
  assert (LE := log_entries _ _ _ L). rewrite Forall_forall in LE.
  assert (DV : distinct_SSE (map view es)).
  { split; [intros e I; apply in_map_iff in I as (x & <- & I); destruct (LE x I) as (_ & _ & num & A & B); eapply NN; eauto|]. clear - DS. induction DS as [|a l F _ IH]; cbn [map]; constructor; auto. apply Forall_map. exact F. }
  destruct (C59_starred 4 (map view es) DV) as (S & ND & IN). set (names := starredNames 4 (map view es)) in *.
  assert (BT : forall s, better (map view es) s = List.length (filter (fun x => fltb (fst x) s) es)).
  { intros s. unfold better. clear. induction es as [|e es IH]; [reflexivity|]. cbn [map filter]. match goal with |- context [if ?b then view e :: _ else _] => change b with (fltb (fst e) s) end. destruct (fltb (fst e) s); cbn [List.length]; [f_equal; exact IH|exact IH]. }
  assert (IN' : forall n, In n names <-> exists e v st, In e es /\ In (lit n, (v, st)) (snd e) /\ st <> [] /\ List.length (filter (fun x => fltb (fst x) (fst e)) es) < 4).
  { intros n. rewrite IN. split.
    - intros (e & I & B & (v & k & K & P)). apply in_map_iff in I as (x & <- & I). rewrite BT in B. cbn [view snd] in K. apply in_map_iff in K as ([m [t st]] & Q & K). cbn [fst snd] in Q. injection Q as <- <- <-.
      exists x, t, st. unfold lit. rewrite txt_str. split; auto. split; auto. split; auto. intros ->. cbn in P. lia.
    - intros (e & v & st & I & K & P & B). exists (view e). split; [now apply in_map|]. split; [rewrite BT; exact B|]. exists fzero, (List.length st). split; [|destruct st; [congruence|cbn; lia]].
      cbn [view snd]. apply in_map_iff. exists (lit n, (v, st)). split; auto. cbn [fst snd]. unfold lit. now rewrite str_txt. }
  assert (W : Forall (fun n => all_s is_word n = true) names).
  { apply Forall_forall. intros n I. apply IN' in I as (e & v & st & I & K & _). rewrite <- (str_txt n). apply name_word. destruct (LE e I) as (A & _). rewrite Forall_forall in A. exact (A _ K). }
  exists names. split; auto. split; auto. split; auto.
  assert (M : lgg_main argsort glob tofloat fmt expanduser fs [file] = grep_file argsort glob tofloat fmt lines []).
  { unfold lgg_main. cbn [main_args]. assert (X : has_dot file = true) by now apply existsb_in. rewrite X. now rewrite FS. }
  rewrite M. destruct (grep_log argsort glob tofloat fmt lines es [] AS NN L NT NE names eq_refl W) as [(rows & P & A & B & C & H)|(x & X & D & y & n & I & J & K)].
  - split; [intros _; exists rows; auto|]. intros e n I J K. exfalso. apply K. apply H; auto.
  - split; [intros H; exfalso; apply K; apply H; auto|]. intros. exists x. auto.
Qed.
Print Assumptions C112_starred.
(** a log without entries: an exception, inside or outside of the call *)
Theorem C112_empty : forall argsort glob tofloat fmt expanduser fs file pats lines,
  In "."%char (lit file) -> fs (expanduser file) = Some lines -> Forall no_sse lines -> no_table lines ->
  lgg_main argsort glob tofloat fmt expanduser fs (file :: pats) = match pats with [] => Debugger ValueError | _ => Uncaught TypeError end.
Proof.
  intros argsort glob tofloat fmt expanduser fs file pats lines HD FS N NT. unfold lgg_main. cbn [main_args]. assert (X : has_dot file = true) by now apply existsb_in. rewrite X, FS. unfold grep_file.
  assert (L : a_log tofloat [] lines) by (clear - N; induction N; constructor; auto). rewrite (C64_log f64 tofloat [] lines L NT). destruct pats; reflexivity.
Qed.
Print Assumptions C112_empty.
(** a file in which something cannot be read: without patterns, or if there is no entry
    before it, the program fails with that error; with patterns the error (or one
    in an entry before it) shows in the debugger *)
Lemma glob_loop_ok : forall glob e es pats acc, exists l, glob_loop glob (e :: es) pats acc = Ok l.
Proof. intros glob [s pd] es. induction pats as [|p pats IH]; intros acc; [exists acc; reflexivity|]. cbn [glob_loop globNames]. apply IH. Qed.
Lemma main_rows_failed : forall tofloat names es e, exists e', main_rows tofloat names es (Failed e) = Raise e'.
Proof.
  intros tofloat names. induction es as [|[s pd] es IH]; intros e; cbn [main_rows]; [exists e; auto|].
  destruct (IH e) as (e' & E). rewrite E. destruct (main_row tofloat names pd) as [r|e1]; cbn [bind]; eauto.
Qed.
Theorem C112_errors : forall argsort glob tofloat fmt expanduser fs file lines es e,
  In "."%char (lit file) -> fs (expanduser file) = Some lines -> filerator tofloat lines = (es, Failed e) ->
  lgg_main argsort glob tofloat fmt expanduser fs [file] = Uncaught e /\
  forall p pats, (es = [] -> lgg_main argsort glob tofloat fmt expanduser fs (file :: p :: pats) = Uncaught e) /\
    (es <> [] -> exists e', lgg_main argsort glob tofloat fmt expanduser fs (file :: p :: pats) = Debugger e').
Proof.
  intros argsort glob tofloat fmt expanduser fs file lines es e HD FS F. unfold lgg_main. cbn [main_args].
  assert (X : has_dot file = true) by now apply existsb_in. rewrite X, FS. unfold grep_file. rewrite F. cbn [main_names]. split; [reflexivity|]. intros p pats.
  destruct es as [|e0 es]; split; intros H; try contradiction; try discriminate; auto.
  cbn [map grepper_names]. destruct (glob_loop_ok glob (view e0) (map view es) (p :: pats) []) as [l L]. rewrite L. cbn [bind].
  destruct (main_rows_failed tofloat (setupNames (ssort l)) (e0 :: es) e) as (e' & E). rewrite E. exists e'. reflexivity.
Qed.
Print Assumptions C112_errors.
(** one line that looks like an SSE but is not a number, and there is no table at
    all, whatever else is in the log *)
Theorem C112_one_line_refuted : forall argsort glob tofloat fmt expanduser fs file pats before,
  tofloat (lit "-") = None -> In "."%char (lit file) -> fs (expanduser file) = Some (before ++ [[]; lit "SSE=-"]) ->
  forall lines, lgg_main argsort glob tofloat fmt expanduser fs (file :: pats) <> Prints lines.
Proof.
  intros argsort glob tofloat fmt expanduser fs file pats before TN HD FS out. unfold lgg_main. cbn [main_args]. assert (X : has_dot file = true) by now apply existsb_in. rewrite X, FS. clear X FS HD.
  assert (P : forall before cur, snd (phase1 tofloat cur (before ++ [[]; lit "SSE=-"])) <> Finished).
  { clear before. assert (E : snd (phase1 tofloat None [lit "SSE=-"]) <> Finished).
    { cbn [phase1]. change (sse_search (lit "SSE=-")) with (Some (lit "-", @nil ascii)). cbv iota beta. rewrite TN. discriminate. }
    induction before as [|l before IH]; intros cur; cbn [app].
    - destruct cur as [[x pd]|]; cbn [phase1 strip lstrip rev app]; [|exact E]. unfold strip. cbn [lstrip rev]. exact E.
    - cbn [phase1]. destruct cur as [[x pd]|].
      + destruct (strip l) as [|c r]; [apply IH|]. destruct (scan_line (c :: r)); [apply IH|discriminate].
      + destruct (sse_search l) as [[n rest]|]; [|apply IH]. destruct (tofloat n); [|discriminate]. destruct (scan_line rest); [apply IH|discriminate]. }
  specialize (P before None). unfold grep_file, filerator. destruct (phase1 tofloat None (before ++ [[]; lit "SSE=-"])) as [es f]. cbn [snd] in P. destruct f as [|e|]; [congruence| |discriminate].
  destruct (main_names glob es (Failed e) pats) as [names|]; [|discriminate]. assert (R : forall names es, exists e', main_rows tofloat names es (Failed e) = Raise e').
  { clear. intros names. induction es as [|[s pd] es IH]; cbn [main_rows]; [eauto|]. destruct (main_row tofloat names pd); cbn [bind]; eauto. destruct IH as [e' ->]. cbn [bind]. eauto. }
  destruct (R (setupNames names) es) as [e' ->]. discriminate.
Qed.
Print Assumptions C112_one_line_refuted.

(** ** the log of an example *)
(** what Solver.report of goldstein-price.py logs: SSE=... with the values, wrapped,
    and an empty line (goldstein-price.py:214-219) *)
Definition report_lines (num : text) (vals : list found) : option (list text) :=
  option_map (fun l => l ++ [[]]) (pretty_lines (lit "SSE=" ++ num ++ lit " with") vals).
Lemma value_item : forall p, a_value p -> an_item (ptok p).
Proof.
  intros p V. destruct (value_nospace p V) as [S N]. destruct V as ((c & r & E & L & W) & V & ST). unfold ptok. destruct (underscored (fst p)) eqn:U; cbn [an_item].
  - split; auto. split; [now apply nospace_iff|]. right. right. rewrite E in U. cbn in U. apply Ascii.eqb_eq in U. subst c. exists "_"%char. eexists. split; [unfold part; rewrite E; reflexivity|].
    intros I. apply letter_iff in I. discriminate.
  - split; [|auto]. exists c, r. split; auto. split; auto. apply in_app_or in L as [L|L]; auto. exfalso. rewrite E in U. destruct L as [<-|[]]. discriminate.
Qed.
Lemma with_item : an_item (TWord (lit "with")).
Proof. split; [discriminate|]. split; [|left; intros I; apply existsb_in in I; discriminate]. apply nospace_iff. repeat constructor. Qed.
Lemma blank_line : forall ts s, a_line ts s -> a_line ts (txt " " ++ s).
Proof.
  intros ts s L. assert (W : white " ") by now apply space_iff. destruct L as [trail A|gap t ts rest A O L Br].
  - constructor. constructor; auto.
  - rewrite app_assoc. constructor; auto. constructor; auto.
Qed.
Lemma items_line : forall ts, Forall an_item ts -> a_line ts (join (txt " ") (map tok_text ts)).
Proof.
  intros ts H. induction H as [|t ts O H IH]; [constructor; constructor|]. destruct ts as [|u ts].
  - cbn [map join]. rewrite <- (app_nil_r (tok_text t)). apply (al_cons [] t [] []); [constructor|exact O|constructor; constructor|now left].
  - cbn [map]. rewrite LogProps.join_cons. apply (al_cons [] t (u :: ts) (txt " " ++ join (txt " ") (tok_text u :: map tok_text ts))); [constructor|exact O|now apply blank_line|right; eexists _, _; split; [reflexivity|now apply space_iff]].
Qed.
Lemma report_entry : forall F (tofloat : text -> option F) num x vals, Forall a_value vals -> NoDup (map fst vals) -> numchars num -> num <> [] -> tofloat num = Some x ->
  List.length (lit "SSE=" ++ num) <= 120 -> Forall (fun p => List.length (part p) <= 120) vals ->
  exists ls, report_lines num vals = Some (ls ++ [[]]) /\ an_entry tofloat (x, readable vals) ls /\ no_table ls.
Proof.
  intros F tofloat num x vals V D N1 N2 T L LV. set (toks := TWord (lit "with") :: map ptok vals).
  assert (EI : join (txt " ") (pretty_parts (lit "SSE=" ++ num ++ lit " with") vals) = join sp ((lit "SSE=" ++ num) :: map tok_text toks)).
  { unfold pretty_parts, toks. cbn [map]. rewrite map_map. rewrite (map_ext (fun p => tok_text (ptok p)) part) by apply ptok_text. change (map (fun p : found => fst p ++ txt "=" ++ fst (snd p) ++ snd (snd p)) vals) with (map part vals).
    rewrite rest_join. change sp with (txt " "). rewrite LogProps.join_cons. cbn [tok_text]. rewrite (rest_join (lit "with") vals). rewrite <- !app_assoc. reflexivity. }
  assert (TI : Forall an_item toks) by (constructor; [apply with_item|]; apply Forall_map; eapply Forall_impl; [|exact V]; apply value_item).
  assert (TF : Forall (fun t => forall y, ~ begins (txt "Final population") (tok_text t ++ y)) toks).
  { constructor.
    - intros y ([|c g] & r & G & E); [discriminate|]. cbn in E. injection E as <- _. inversion G; discriminate.
    - apply Forall_map. eapply Forall_impl; [|exact V]. intros p Vp y. rewrite ptok_text. now apply part_not_final. }
  destruct (C109_items 120 ((lit "SSE=" ++ num) :: map tok_text toks)) as (groups & E & C & G & _); [discriminate| |].
  { constructor; [split; [discriminate|]; split; [now apply num_item|exact L]|]. constructor; [split; [discriminate|]; split; [apply with_item|cbn; lia]|]. apply Forall_map, Forall_map. rewrite Forall_forall in V, LV |- *. intros p I. destruct (value_nospace p (V _ I)) as [V1 V2]. rewrite ptok_text. split; auto. split; [now apply nospace_iff|auto]. }
  destruct groups as [|g0 gs]; [discriminate|]. inversion G as [|? ? G0 GS]; subst. destruct g0 as [|u g0]; [congruence|]. cbn [concat app] in C. injection C as -> C.
  destruct (split_groups _ _ tok_text (g0 :: gs) toks C) as (vss & E1 & E2). destruct vss as [|t0 tss]; [discriminate|]. cbn [map] in E1. injection E1 as -> ->. cbn [concat] in E2.
  assert (TI' := TI). rewrite <- E2 in TI, TF. apply Forall_app in TI as [I0 I1]. apply Forall_app in TF as [_ F1]. clear C.
  assert (PT : params t0 ++ flat_map params tss = readable vals).
  { transitivity (params toks); [|unfold toks; cbn; apply ptok_params]. rewrite <- E2. unfold params. rewrite flat_map_app. f_equal. clear. induction tss as [|t tss IH]; [reflexivity|]. cbn [flat_map concat]. rewrite flat_map_app. now f_equal. }
  assert (MORE : Forall2 (fun ts l => a_line ts l /\ ts <> []) tss (map (join sp) (map (map tok_text) tss)) /\ no_table (map (join sp) (map (map tok_text) tss))).
  { clear - I1 F1 GS. induction tss as [|t tss IH]; [repeat constructor|]. cbn [concat map] in *. apply Forall_app in I1 as [A1 A2]. apply Forall_app in F1 as [B1 B2]. inversion GS; subst. destruct IH as [H3 H4]; auto.
    split; constructor; auto.
    - split; [now apply items_line|]. intros ->. apply H1. reflexivity.
    - destruct t as [|t0 t]; [exfalso; now apply H1|]. inversion B1; subst. intros Q. apply starts_iff in Q. revert Q. change (lit "Final population") with (txt "Final population"). assert (J : exists y, join sp (map tok_text (t0 :: t)) = tok_text t0 ++ y) by (destruct t; [exists []; cbn; now rewrite app_nil_r|eexists; reflexivity]). destruct J as [y ->]. match goal with H : forall y : list ascii, ~ _ |- _ => apply H | H : forall y : text, ~ _ |- _ => apply H end. }
  set (rest := match t0 with [] => [] | _ => txt " " ++ join (txt " ") (map tok_text t0) end).
  assert (EL : join sp ((lit "SSE=" ++ num) :: map tok_text t0) = lit "SSE=" ++ num ++ rest).
  { unfold rest. destruct t0 as [|t t0]; [cbn; now rewrite app_nil_r|]. change sp with (txt " "). cbn [map]. rewrite LogProps.join_cons. rewrite <- app_assoc. reflexivity. }
  exists (map (join sp) (((lit "SSE=" ++ num) :: map tok_text t0) :: map (map tok_text) tss)). split; [|split].
  - unfold report_lines, pretty_lines. rewrite EI. change maxLineLength with 120. rewrite E. reflexivity.
  - exists [], num, rest, t0, tss, (map (join sp) (map (map tok_text) tss)). cbn [fst snd]. split; [cbn [map app]; now rewrite EL|]. split; [intros [|] b Q; discriminate|]. split; auto. split; auto. split; auto. split; [|split; [|split; [apply MORE|split; [now rewrite PT|now apply readable_nodup]]]].
    + unfold rest. destruct t0 as [|t t0]; [constructor; constructor|]. apply blank_line. now apply items_line.
    + unfold rest. intros c r Q. destruct t0 as [|t t0]; [discriminate|]. cbn in Q. injection Q as <- _. intros I. apply num_iff in I. discriminate.
  - cbn [map]. constructor; [|apply MORE]. rewrite EL. intros Q. apply starts_iff in Q. destruct Q as ([|c g] & r & Gq & Eq); [discriminate|]. cbn in Eq. injection Eq as <- _. inversion Gq; discriminate.
Qed.
(** the log of the reports of a run *)
Fixpoint solver_log (reports : list (text * list found)) : option (list text) :=
  match reports with
  | [] => Some []
  | (num, vals) :: reports =>
    match report_lines num vals, solver_log reports with Some a, Some b => Some (a ++ b) | _, _ => None end
  end.
(** a report that fits: names are identifiers, the SSE and the values are numbers, no
    part is longer than a line *)
Definition fits (tofloat : text -> option f64) (r : text * list found) (x : f64) : Prop :=
  Forall a_value (snd r) /\ NoDup (map fst (snd r)) /\ numchars (fst r) /\ fst r <> [] /\ tofloat (fst r) = Some x /\
  List.length (fst r) <= 116 /\ Forall (fun p => List.length (fst p) + List.length (fst (snd p)) + List.length (snd (snd p)) <= 119) (snd r).
Lemma solver_ok : forall tofloat reports xs, Forall2 (fits tofloat) reports xs ->
  exists lines, solver_log reports = Some lines /\ a_log tofloat (combine xs (map (fun r => readable (snd r)) reports)) lines /\ no_table lines.
Proof.
  intros tofloat reports xs H. induction H as [|[num vals] x reports xs (V & D & N1 & N2 & T & L & LV) H IH]; [exists []; repeat constructor|]. cbn [fst snd] in *. destruct IH as (lines & E & A & B).
  destruct (report_entry f64 tofloat num x vals V D N1 N2 T) as (ls & R & AE & NT).
  - rewrite app_length. change (List.length (lit "SSE=")) with 4. lia.
  - eapply Forall_impl; [|exact LV]. intros p Q. cbv beta in Q. unfold part. rewrite !app_length. change (List.length (txt "=")) with 1. unfold text in *. lia.
  - exists ((ls ++ [[]]) ++ lines). split; [cbn [solver_log]; now rewrite R, E|]. rewrite <- app_assoc. cbn [map combine app snd]. split; [apply lg_entry; auto; constructor|].
    apply Forall_app. split; auto. constructor; auto. intros Q. apply starts_iff in Q. revert Q. apply blank_not_final. constructor.
Qed.
(** a run that reports ever better SSEs for the same parameters: lgg shows the
    parameters asked for, and in its last line the last report *)
Theorem C112_solver : forall argsort glob tofloat fmt expanduser file pats before last xs x params,
  is_argsort argsort -> no_nans tofloat -> In "."%char (lit file) -> pats <> [] ->
  Forall2 (fits tofloat) (before ++ [last]) (xs ++ [x]) -> Forall (fun y => fltb x y = true) xs ->
  Forall (fun r => map fst (snd r) = params /\ Forall (fun p => exists y, tofloat (fst (snd p)) = Some y) (snd r)) (before ++ [last]) ->
  exists lines, solver_log (before ++ [last]) = Some lines /\
  forall fs, fs (expanduser file) = Some lines ->
  exists names rows, lgg_main argsort glob tofloat fmt expanduser fs (file :: pats) = Prints (table names rows) /\
    Sorted sle names /\ NoDup names /\
    (forall n, In n names <-> In (lit n) params /\ (forall r, lit n <> "_"%char :: r) /\ exists p, In p pats /\ glob n p = true) /\
    1 <= List.length rows <= 40 /\
    (List.length rows < 40 \/ List.length before < 40 -> exists others line, rows = others ++ [line] /\ line_for tofloat fmt names (x, snd last) line).
Proof.
  intros argsort glob tofloat fmt expanduser file pats before last xs x params AS NN HD NP F B SAME.
  destruct (solver_ok _ _ _ F) as (lines & E & L & NT). exists lines. split; auto. intros fs FS.
  set (reports := before ++ [last]) in *. set (es := combine (xs ++ [x]) (map (fun r => readable (snd r)) reports)) in *.
  assert (LEN : List.length (xs ++ [x]) = List.length reports) by (clear - F; induction F; cbn; auto).
  assert (EB : es = combine xs (map (fun r => readable (snd r)) before) ++ [(x, readable (snd last))]).
  { unfold es, reports in *. rewrite map_app. cbn [map]. rewrite !app_length in LEN. cbn in LEN. clear - LEN. revert before LEN. induction xs as [|y xs IH]; intros [|b before] LEN; cbn in *; try lia; [reflexivity|]. f_equal. apply IH. lia. }
  assert (RD : forall (r : text * list found) n, map fst (snd r) = params -> (In n (map fst (readable (snd r))) <-> In n params /\ forall t, n <> "_"%char :: t)).
  { intros r n <-. unfold readable. rewrite !in_map_iff. split.
    - intros (p & <- & I). apply filter_In in I as [I U]. split; [eauto|]. intros t Q. rewrite Q in U. discriminate.
    - intros ((p & <- & I) & U). exists p. split; auto. apply filter_In. split; auto. destruct (fst p) as [|c t] eqn:Ep; [reflexivity|]. cbn. destruct (Ascii.eqb c "_") eqn:Ec; [|reflexivity]. apply Ascii.eqb_eq in Ec. subst c. exfalso. now apply (U t). }
  assert (INE : forall e, In e es -> exists r, In r reports /\ snd e = readable (snd r)).
  { intros e I. unfold es in I. destruct e as [y v]. apply in_combine_r in I. apply in_map_iff in I as (r & <- & I). eauto. }
  rewrite Forall_forall in SAME.
  destruct es as [|e0 es'] eqn:ES; [exfalso; destruct (combine xs _); discriminate|].
  destruct (C112_patterns argsort glob tofloat fmt expanduser fs file pats lines e0 es' AS NN HD FS L NT NP) as (names & S & ND & IN & OK & _).
  destruct (INE e0 (or_introl eq_refl)) as (r0 & I0 & R0). destruct (SAME r0 I0) as [P0 _].
  assert (ASK : forall n, asked glob pats e0 n <-> In (lit n) params /\ (forall r, lit n <> "_"%char :: r) /\ exists p, In p pats /\ glob n p = true).
  { intros n. unfold asked. rewrite R0. assert (X := RD r0 (lit n) P0). unfold text in *. rewrite X. tauto. }
  destruct OK as (rows & P & LR & _ & LAST).
  { intros e n I A. apply ASK in A as (A1 & A2 & _). destruct (INE e I) as (r & Ir & Rr). destruct (SAME r Ir) as [Pr NUM]. assert (X : In (lit n) (map fst (readable (snd r)))) by (apply RD; auto).
    apply in_map_iff in X as ([m [v st]] & Em & Im). cbn [fst] in Em. subst m. assert (Im' := Im). apply filter_In in Im' as [Im' _]. rewrite Forall_forall in NUM. destruct (NUM _ Im') as [y Y]. exists v, st, y. rewrite Rr. auto. }
  exists names, rows. split; auto. split; auto. split; auto. split; [intros n; rewrite IN; apply ASK|]. split; auto.
  intros SH. destruct LAST as (others & line & e & ER & Ie & LF & MIN).
  { destruct SH as [SH|SH]; [now left|right]. rewrite EB, app_length, combine_length, map_length. cbn. lia. }
  exists others, line. split; auto. assert (EE : e = (x, readable (snd last))).
  { rewrite EB in Ie. apply in_app_or in Ie as [Ie|[<-|[]]]; auto. exfalso. destruct e as [y v]. apply in_combine_l in Ie. rewrite Forall_forall in B. specialize (B y Ie). specialize (MIN (x, readable (snd last))). cbn [fst] in MIN.
    assert (X : fleb y x = true) by (apply MIN; rewrite EB; apply in_or_app; right; now left). apply fltb_spec in B as (_ & _ & B). apply fleb_spec in X as (_ & _ & X). lra. }
  subst e. destruct LF as (cells & trail & C1 & C2). exists cells, trail. split; [|exact C2]. clear - C1. cbn [snd] in *. induction C1 as [|n c names cells (v & st & z & A1 & A2) _ IH]; constructor; auto. exists v, st, z. split; auto. now apply filter_In in A1.
Qed.
Print Assumptions C112_solver.
(** float() and formatting of a few numbers *)
Definition ex_num (s : text) : option f64 :=
  if text_eqb s (lit "9.00000") then Some (fofZ 9) else if text_eqb s (lit "4.50000") then Some (flit 9 (-1)) else if text_eqb s (lit "1.5") then Some (flit 3 (-1)) else if text_eqb s (lit "-2") then Some (fofZ (-2)) else None.
Definition ex_fmt (x : f64) : string :=
  if feqb x (fofZ 9) then "9" else if feqb x (flit 9 (-1)) then "4.5" else if feqb x (flit 3 (-1)) then "1.5" else if feqb x (fofZ (-2)) then "-2" else "?".
Definition ex_reports : list (text * list found) :=
  [(lit "9.00000", [(lit "_t", (lit "-2", [])); (lit "x", (lit "1.5", lit "*")); (lit "y", (lit "-2", []))]);
   (lit "4.50000", [(lit "_t", (lit "1.5", [])); (lit "x", (lit "-2", [])); (lit "y", (lit "1.5", lit "**"))])].
Definition ex_fs (lines : list text) (path : string) : option (list text) := if String.eqb path "/home/me/my.log" then Some lines else None.
Definition ex_home (p : string) : string := if String.eqb p "~/my.log" then "/home/me/my.log" else p.
Example C112_ex : match solver_log ex_reports with
  | Some lines => map string_of_list_ascii lines = ["SSE=9.00000 with _t=-2 x=1.5* y=-2"; ""; "SSE=4.50000 with _t=1.5 x=-2 y=1.5**"; ""]%string /\
    lgg_main stable_argsort (fun n p => String.eqb p "*" || String.eqb n p)%bool ex_num ex_fmt ex_home (ex_fs lines) ["~/my.log"; "*"]%string =
      Prints [""; "       SSE            x            y"; "--------------------------------------"; "         9          1.5*          -2"; "       4.5           -2          1.5**"; ""]%string /\
    lgg_main stable_argsort (fun n p => String.eqb p "*" || String.eqb n p)%bool ex_num ex_fmt ex_home (ex_fs lines) ["~/my.log"]%string =
      lgg_main stable_argsort (fun n p => String.eqb p "*" || String.eqb n p)%bool ex_num ex_fmt ex_home (ex_fs lines) ["~/my.log"; "y"; "x"]%string /\
    lgg_main stable_argsort String.eqb ex_num ex_fmt ex_home (ex_fs lines) ["y"]%string = NoFile "~/pfinder.log" /\
    lgg_main stable_argsort String.eqb ex_num ex_fmt ex_home (ex_fs (lines ++ [lit "SSE=9.00000 x=-2"; []])) ["~/my.log"; "y"]%string = Debugger KeyError /\
    lgg_main stable_argsort String.eqb ex_num ex_fmt ex_home (ex_fs (lines ++ [lit "SSE=9.00000 y=3e+"; []])) ["~/my.log"; "y"]%string = Debugger ValueError
  | None => False
  end.
Proof. vm_compute. repeat split. Qed.
Lemma ex_nan : no_nans ex_num.
Proof.
  intros t x _. unfold ex_num. repeat match goal with |- (if ?b then _ else _) = _ -> _ => destruct b end; try discriminate; intros H; apply (f_equal (fun o => match o with Some y => isnan y | None => true end)) in H; cbv beta iota in H; rewrite <- H; vm_compute; reflexivity.
Qed.
Lemma ex_vals4 : ex_num (lit "9.00000") = Some (fofZ 9) /\ ex_num (lit "4.50000") = Some (flit 9 (-1)) /\ ex_num (lit "1.5") = Some (flit 3 (-1)) /\ ex_num (lit "-2") = Some (fofZ (-2)).
Proof.
  unfold ex_num. repeat match goal with |- context [if text_eqb ?a ?b then _ else _] => let r := eval vm_compute in (text_eqb a b) in change (text_eqb a b) with r; cbv iota end. repeat split.
Qed.
Example C112_solver_ex : is_argsort stable_argsort /\ no_nans ex_num /\ In "."%char (lit "~/my.log") /\
  Forall2 (fits ex_num) ex_reports [fofZ 9; flit 9 (-1)] /\ Forall (fun y => fltb (flit 9 (-1)) y = true) [fofZ 9] /\
  Forall (fun r => map fst (snd r) = map lit ["_t"; "x"; "y"]%string /\ Forall (fun p => exists y, ex_num (fst (snd p)) = Some y) (snd r)) ex_reports.
Proof.
  assert (W : forall s c, existsb (Ascii.eqb c) s = true -> In c s) by (intros; now apply existsb_in).
  assert (N1 : a_number (lit "1.5")) by (exists [], "1"%char, (lit ".5"); split; [reflexivity|]; split; [now left|]; split; [apply W; reflexivity|]; repeat constructor; apply W; reflexivity).
  assert (N2 : a_number (lit "-2")) by (exists (lit "-"), "2"%char, []; split; [reflexivity|]; split; [now right; right|]; split; [apply W; reflexivity|]; constructor).
  assert (I1 : identifier (lit "_t")) by (exists "_"%char, (lit "t"); split; [reflexivity|]; split; [apply W; reflexivity|]; repeat constructor; apply W; reflexivity).
  assert (I2 : identifier (lit "x")) by (exists "x"%char, []; split; [reflexivity|]; split; [apply W; reflexivity|]; constructor).
  assert (I3 : identifier (lit "y")) by (exists "y"%char, []; split; [reflexivity|]; split; [apply W; reflexivity|]; constructor).
  split; [apply stable_is_argsort|]. split; [apply ex_nan|]. split; [apply W; reflexivity|]. split; [|split].
  - assert (NC : forall t, forallb is_num t = true -> numchars t) by (intros t H; apply num_all, Forall_forall; now apply forallb_forall).
    assert (G : forall num x v1 v2 v3 s1 s2 s3, numchars num -> num <> [] -> List.length num = 7 -> ex_num num = Some x -> a_number v1 -> a_number v2 -> a_number v3 -> some_stars s1 -> some_stars s2 -> some_stars s3 ->
      List.length v1 + List.length v2 + List.length v3 + List.length s1 + List.length s2 + List.length s3 <= 20 -> fits ex_num (num, [(lit "_t", (v1, s1)); (lit "x", (v2, s2)); (lit "y", (v3, s3))]) x).
    { intros num x v1 v2 v3 s1 s2 s3 A1 A2 A3 A4 B1 B2 B3 B4 B5 B6 B7. unfold fits. cbn [fst snd]. split; [repeat (constructor; [repeat (split; [assumption|]); assumption|]); constructor|]. split; [repeat constructor; cbn; intuition discriminate|]. split; auto. split; auto. split; auto. split; [lia|]. repeat (apply Forall_cons; [cbn [fst snd lit list_ascii_of_string List.length]; unfold text in *; lia|]). apply Forall_nil. }
    unfold ex_reports. constructor; [|constructor; [|constructor]].
    + simple refine (G (lit "9.00000") (fofZ 9) (lit "-2") (lit "1.5") (lit "-2") [] (lit "*") [] _ _ _ (proj1 ex_vals4) _ _ _ _ _ _ _); [apply NC; reflexivity|discriminate|reflexivity|exact N2|exact N1|exact N2|constructor|repeat constructor|constructor|cbn; lia].
    + simple refine (G (lit "4.50000") (flit 9 (-1)) (lit "1.5") (lit "-2") (lit "1.5") [] [] (lit "**") _ _ _ (proj1 (proj2 ex_vals4)) _ _ _ _ _ _ _); [apply NC; reflexivity|discriminate|reflexivity|exact N1|exact N2|exact N1|constructor|constructor|repeat constructor|cbn; lia].
  - constructor; [vm_compute; reflexivity|constructor].
  - assert (Y1 : exists y, ex_num (lit "1.5") = Some y) by exact (ex_intro _ _ (proj1 (proj2 (proj2 ex_vals4)))). assert (Y2 : exists y, ex_num (lit "-2") = Some y) by exact (ex_intro _ _ (proj2 (proj2 (proj2 ex_vals4)))).
    unfold ex_reports. constructor; [|constructor; [|constructor]]; (split; [reflexivity|]); cbn [snd fst].
    + constructor; [exact Y2|]. constructor; [exact Y1|]. constructor; [exact Y2|constructor].
    + constructor; [exact Y1|]. constructor; [exact Y2|]. constructor; [exact Y1|constructor].
Qed.
(** files in which something cannot be read, without and with an entry before it *)
Definition bad_float (t : text) : option f64 := if string_dec (string_of_list_ascii t) "-" then None else Some fone.
Example C112_errors_nonvacuous :
  (fun x => (List.length (fst x), match snd x with Failed ValueError => true | _ => false end)) (filerator bad_float [[]; lit "SSE=-"]) = (0, true) /\
  (fun x => (List.length (fst x), match snd x with Failed ValueError => true | _ => false end)) (filerator bad_float [[]; lit "SSE=1"; lit "a=1"; []; lit "SSE=-"]) = (1, true).
Proof. split; vm_compute; reflexivity. Qed.

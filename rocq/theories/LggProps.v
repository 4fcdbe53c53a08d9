(** * Properties of the log table: C54, C55, C59, C60, C61 *)
From Coq Require Import ZArith String Ascii List Bool Arith Lia Permutation Sorted Reals Lra.
From Flocq Require Import Core IEEE754.BinarySingleNaN.
From Verif Require Import Flt FltMore Py ParamModel ParamProofs RankModel SampFloat RankProofs LggModel LggProofs.
Import ListNotations.
Local Open Scope nat_scope.
#[local] Arguments fltb : simpl never.
#[local] Arguments fleb : simpl never.
#[local] Arguments fmul : simpl never.
#[local] Arguments fdiv : simpl never.
#[local] Arguments fsub : simpl never.

(** ** C54 *)
(** [consec P l] (LggProofs.v): P holds of any two neighbours in l.
    [differs d r r'] (LggModel.v): the SSEs or the values at some place satisfy
    the code's relative difference test.
    The significant entries [sig], best first: they are in order of SSE, begin
    with an entry of the lowest SSE, are within the ratio, each differs from
    the one before it, and an entry is left out only if it is beyond the ratio
    or does not differ from the significant entry next better to it.  What is
    kept is the end of that list, reversed: all of it, or just maxRows, in which
    case the best entry is dropped if there were more *)
Theorem C54_trim : forall argsort rows maxRatio maxDiff maxRows, is_argsort argsort -> rows <> [] ->
  (forall r, In r rows -> isnan (rSSE r) = false) ->
  let r := fun k => nth k rows row0 in
  exists sig k0 best cut kept,
    trim argsort rows maxRatio maxDiff maxRows = Ok (map r kept) /\ sig = cut ++ rev kept /\
    (maxRows = 0 -> cut = []) /\ (1 <= maxRows -> length kept <= maxRows) /\ (cut = [] \/ length kept = maxRows) /\
    (1 <= maxRows < length sig -> ~ In k0 kept) /\
    hd_error sig = Some k0 /\ NoDup sig /\ (forall k, In k sig -> k < length rows) /\
    In best (map rSSE rows) /\ (forall x, In x rows -> fleb best (rSSE x) = true /\ fleb (rSSE (r k0)) (rSSE x) = true) /\
    (forall k, In k sig -> k = k0 \/ fltb (fmul maxRatio best) (rSSE (r k)) = false) /\
    StronglySorted (fun a b => fleb (rSSE (r a)) (rSSE (r b)) = true) sig /\
    consec (fun a b => differs maxDiff (r b) (r a) = true) sig /\
    (forall k, k < length rows -> ~ In k sig ->
      fltb (fmul maxRatio best) (rSSE (r k)) = true \/
      exists a, In a sig /\ fleb (rSSE (r a)) (rSSE (r k)) = true /\ differs maxDiff (r k) (r a) = false /\
        forall b, In b sig -> fleb (rSSE (r b)) (rSSE (r a)) = true \/ fleb (rSSE (r k)) (rSSE (r b)) = true).
Proof.
  intros argsort rows maxRatio maxDiff maxRows AS NE N r. destruct (trim_shape argsort rows maxRatio maxDiff maxRows AS NE N) as (k0 & K & EK & SS & P & T). fold r in SS, T.
  set (lim := fmul maxRatio (np_min (map rSSE rows))) in *. set (sig := k0 :: trim_scan r lim maxDiff k0 K) in *.
  destruct (lastn_split maxRows sig) as (cut & E & C1 & C2 & C3).
  destruct (np_min_ok (map rSSE rows)) as [M1 M2]; [destruct rows; [congruence|discriminate]|intros x I; apply in_map_iff in I as (y & <- & I); auto|].
  assert (NDK : NoDup (k0 :: K)) by (apply (Permutation_NoDup (l := seq 0 (length rows))); [now apply Permutation_sym|apply seq_NoDup]). inversion NDK; subst.
  exists sig, k0, (np_min (map rSSE rows)), cut, (rev (lastn maxRows sig)). rewrite rev_involutive, rev_length.
  split; [unfold trim; rewrite T; reflexivity|]. do 4 (split; [auto; fail|]).
  assert (In_K : forall k, In k sig -> In k (k0 :: K)) by (intros k [<-|I]; [simpl; auto|right; eapply scan_incl; eauto]).
  assert (NDS : NoDup sig) by (constructor; [intros I; apply scan_incl in I; auto|now apply scan_nodup]).
  split.
  { intros L I. apply in_rev in I. destruct cut as [|c cut].
    - simpl in E. rewrite E in L. specialize (C2 ltac:(lia)). lia.
    - unfold sig in E at 1. injection E as <- E. inversion NDS; subst. apply H3. rewrite E. apply in_or_app. auto. }
  split; auto. split; auto.
  split; [intros k I; apply In_K in I; apply (Permutation_in _ P) in I; apply in_seq in I; lia|].
  split; auto. split.
  { intros x I. split; [apply M2; now apply in_map|]. destruct (In_nth _ _ row0 I) as (j & J1 & J2). rewrite <- J2. fold (r j).
    assert (J : In j (k0 :: K)) by (apply (Permutation_in _ (Permutation_sym P)), in_seq; lia). destruct J as [<-|J]; [apply fleb_refl, N, nth_In; auto|]. inversion SS as [|? ? S1 F1]; subst. rewrite Forall_forall in F1. exact (F1 j J). }
  split; [intros k [<-|I]; auto; right; eapply scan_ratio; eauto|].
  split; [inversion SS as [|? ? S1 F1]; subst; constructor; [now apply scan_sorted|rewrite Forall_forall in F1 |- *; intros k I; apply scan_incl in I; exact (F1 k I)]|].
  split; [apply scan_consec|]. intros k Hk NI. assert (J : In k (k0 :: K)) by (apply (Permutation_in _ (Permutation_sym P)), in_seq; lia).
  destruct J as [<-|J]; [exfalso; apply NI; simpl; auto|]. apply scan_drop; auto. intros I. apply NI. simpl. auto.
Qed.
Print Assumptions C54_trim.
(** every entry kept is within maxRatio of the best SSE, if maxRatio is at least
    1 and the best SSE is not negative *)
Theorem C54_ratio : forall argsort rows maxRatio maxDiff maxRows kept, is_argsort argsort -> rows <> [] ->
  (forall r, In r rows -> isnan (rSSE r) = false) -> fleb fone maxRatio = true -> isfin maxRatio = true ->
  trim argsort rows maxRatio maxDiff maxRows = Ok kept ->
  exists best, In best (map rSSE rows) /\ (forall x, In x rows -> fleb best (rSSE x) = true) /\
    (isfin best = true -> fleb fzero best = true -> forall x, In x kept -> In x rows /\ fleb (rSSE x) (fmul maxRatio best) = true).
Proof.
  intros argsort rows maxRatio maxDiff maxRows kept AS NE N R1 RF T.
  destruct (C54_trim argsort rows maxRatio maxDiff maxRows AS NE N) as (sig & k0 & best & cut & KS & E & ES & _ & _ & _ & _ & HD & _ & V & B & M & Ra & _). rewrite E in T. injection T as <-.
  exists best. split; auto. split; [intros x I; now apply M|]. intros BF B0 x I. apply in_map_iff in I as (k & <- & I).
  assert (S : In k sig) by (rewrite ES; apply in_or_app; right; now apply in_rev in I). split; [now apply nth_In, V|].
  assert (Nk : isnan (rSSE (nth k rows row0)) = false) by now apply N, nth_In, V.
  destruct (fmul_key maxRatio best RF BF) as [MN MK].
  destruct (Ra k S) as [->|X].
  - apply fleb_spec. split; auto. split; auto. rewrite MK. apply fleb_spec in R1 as (_ & _ & R1). apply fleb_spec in B0 as (_ & _ & B0). rewrite key_fone, (key_fin _ RF) in R1. rewrite key_fzero, (key_fin _ BF) in B0.
    apply Rle_trans with (crnd (B2R best)); [|apply crnd_mono; nra]. rewrite crnd_B2R. rewrite <- (key_fin _ BF).
    apply in_map_iff in B as (x & EX & IX). destruct (M x IX) as [_ L]. rewrite EX in L. now apply fleb_spec in L.
  - destruct (fleb_total (rSSE (nth k rows row0)) (fmul maxRatio best)) as [L|L]; auto. congruence.
Qed.
Print Assumptions C54_ratio.
(** the best entry is kept, as the last one, if fewer than maxRows are kept, or
    if maxRows is not less than the number of entries *)
Theorem C54_best_last : forall argsort rows maxRatio maxDiff maxRows kept, is_argsort argsort -> rows <> [] ->
  (forall r, In r rows -> isnan (rSSE r) = false) -> trim argsort rows maxRatio maxDiff maxRows = Ok kept ->
  length kept < maxRows \/ maxRows = 0 \/ length rows <= maxRows ->
  exists l b, kept = l ++ [b] /\ forall x, In x rows -> fleb (rSSE b) (rSSE x) = true.
Proof.
  intros argsort rows maxRatio maxDiff maxRows kept AS NE N T L.
  destruct (C54_trim argsort rows maxRatio maxDiff maxRows AS NE N) as (sig & k0 & best & cut & KS & E & ES & Z & LE & C & _ & HD & ND & V & B & M & _). rewrite E in T. injection T as <-. rewrite map_length in L.
  assert (cut = []).
  { destruct C as [C|C]; auto. destruct L as [L|[L|L]]; [lia|auto|]. assert (length sig <= length rows). { rewrite <- (seq_length (length rows) 0). apply NoDup_incl_length; auto. intros k I. apply in_seq. specialize (V k I). lia. }
    rewrite ES, app_length, rev_length in H. destruct cut; auto. simpl in H. lia. }
  subst cut. simpl in ES. assert (ER : KS = rev sig) by (rewrite ES; now rewrite rev_involutive). destruct sig as [|k sig]; [discriminate|]. injection HD as ->. simpl in ER. subst KS. rewrite map_app. simpl. eexists. eexists. split; [reflexivity|]. intros x I. now apply M.
Qed.
Print Assumptions C54_best_last.
(** when an entry counts as different from the last one kept: the SSE, or some
    value, differs by more than maxDiff times what it is there, or is more than
    maxDiff where it is zero there *)
Theorem C54_differs : forall maxDiff r last, differs maxDiff r last = true <->
  exists a b, ((a, b) = (rSSE r, rSSE last) \/ exists k, nth_error (rvals r) k = Some a /\ nth_error (rvals last) k = Some b) /\
    if feqb b fzero then fltb maxDiff (fabs a) = true else fltb maxDiff (fdiv (fabs (fsub a b)) b) = true.
Proof.
  intros d r l.
  assert (DE : forall a b, diffEnough d a b = true <-> if feqb b fzero then fltb d (fabs a) = true else fltb d (fdiv (fabs (fsub a b)) b) = true).
  { intros a b. unfold diffEnough. destruct (feqb b fzero); reflexivity. }
  assert (AD : forall u v, any_diff d u v = true <-> exists k a b, nth_error u k = Some a /\ nth_error v k = Some b /\ diffEnough d a b = true).
  { induction u as [|a u IH]; intros [|b v]; cbn [any_diff].
    - split; [discriminate|]. intros (k & a & b & A & _). destruct k; discriminate A.
    - split; [discriminate|]. intros (k & a & b' & A & _). destruct k; discriminate A.
    - split; [discriminate|]. intros (k & a' & b & _ & B & _). destruct k; discriminate B.
    - rewrite orb_true_iff, IH. split.
      + intros [H|(k & x & y & A & B & D)]; [exists 0, a, b; auto|]. exists (S k), x, y. auto.
      + intros ([|k] & x & y & A & B & D); [left; injection A as ->; injection B as ->; exact D|]. right. exists k, x, y. auto. }
  unfold differs. rewrite orb_true_iff, AD. split.
  - intros [H|(k & a & b & A & B & D)].
    + exists (rSSE r), (rSSE l). split; [auto|]. now apply DE.
    + exists a, b. split; [right; exists k; auto|]. now apply DE.
  - intros (a & b & [E|(k & A & B)] & D); [injection E as -> ->; left; now apply DE|]. right. exists k, a, b. split; auto. split; auto. now apply DE.
Qed.
Print Assumptions C54_differs.
(** one value of two apart from the other entry is enough *)
Example C54_differs_ex : forall r l, r = {| rSSE := fone; rvals := [fone; fofZ 3]; rstars := [] |} -> l = {| rSSE := fone; rvals := [fone; fone]; rstars := [] |} ->
  nth_error (rvals r) 1 = Some (fofZ 3) /\ nth_error (rvals l) 1 = Some fone /\ feqb fone fzero = false /\ fltb (flit 1 (-5)) (fdiv (fabs (fsub (fofZ 3) fone)) fone) = true.
Proof. intros r l -> ->. split; [reflexivity|]. split; [reflexivity|]. split; vm_compute; reflexivity. Qed.
Definition mkrow (m : Z) (v : list f64) : row := {| rSSE := fofZ m; rvals := v; rstars := map (fun _ => 0) v |}.
Example C54_ex : let rows := [mkrow 40 [fone]; mkrow 30 [fone]; mkrow 31 [fofZ 3]; mkrow 20 [fone]; mkrow 25 [fone]] in
  is_argsort stable_argsort /\ (forall r, In r rows -> isnan (rSSE r) = false) /\
  match trim_ks stable_argsort rows def_ratio def_diff 40 with Ok l => l = [0; 2; 1; 4; 3] | _ => False end /\
  match trim_ks stable_argsort rows (flit 3 (-1)) def_diff 40 with Ok l => l = [1; 4; 3] | _ => False end.
Proof. split; [exact stable_is_argsort|]. split; [intros r H; simpl in H; intuition subst; reflexivity|]. split; vm_compute; reflexivity. Qed.
(** "only include the entry with the best SSE and worse entries": with the
    default options and 42 significant entries the best one is dropped *)
Theorem C54_best_dropped_refuted : exists rows kept, trim stable_argsort rows def_ratio def_diff def_rows = Ok kept /\ length kept = 40 /\
  exists b, In b rows /\ forall x, In x kept -> fltb (rSSE b) (rSSE x) = true.
Proof.
  set (rows := map (fun n => mkrow (Z.of_nat (50 + n)) []) (seq 0 42)). exists rows. destruct (trim_ks stable_argsort rows def_ratio def_diff def_rows) as [KS|] eqn:E.
  - exists (map (fun k => nth k rows row0) KS). unfold trim. rewrite E. split; [reflexivity|]. assert (X : match trim_ks stable_argsort rows def_ratio def_diff def_rows with Ok l => l = rev (seq 2 40) | _ => False end) by (vm_compute; reflexivity).
    rewrite E in X. subst KS. split; [reflexivity|]. exists (mkrow 50 []). split; [left; reflexivity|]. intros x I. apply in_map_iff in I as (k & <- & I). apply in_rev in I.
    assert (F : forallb (fun k => fltb (rSSE (mkrow 50 [])) (rSSE (nth k rows row0))) (seq 2 40) = true) by (vm_compute; reflexivity). rewrite forallb_forall in F. auto.
  - exfalso. assert (X : match trim_ks stable_argsort rows def_ratio def_diff def_rows with Ok l => True | _ => False end) by (vm_compute; exact I). now rewrite E in X.
Qed.
Print Assumptions C54_best_dropped_refuted.
Lemma inf_quot : forall b, isfin b = true -> (B2R b < 0)%R -> (key (fdiv finf b) <= 0)%R.
Proof.
  intros b FB HB. destruct b as [sb|sb| |sb m e H]; try discriminate; [simpl in HB; lra|]. destruct sb.
  - change (key fninf <= 0)%R. simpl. generalize big_pos. lra.
  - exfalso. simpl in HB. assert (X : (0 < F2R (Float radix2 (Z.pos m) e))%R) by (apply F2R_gt_0; reflexivity). unfold F2R in X, HB. simpl in X, HB. lra.
Qed.
(** "at least one parameter has a relative difference of more than maxDiff":
    not for a parameter that is negative in the better entry *)
Theorem C54_negative_refuted : forall maxDiff a b, isfin a = true -> isfin b = true -> (B2R b < 0)%R -> fleb fzero maxDiff = true ->
  diffEnough maxDiff a b = false.
Proof.
  intros d a b FA FB HB D. unfold diffEnough. destruct (feqb b fzero) eqn:E.
  - apply feqb_spec in E as (_ & _ & E). rewrite key_fzero, (key_fin _ FB) in E. lra.
  - destruct (fltb d _) eqn:L; auto. exfalso. apply fltb_spec in L as (ND & NX & L). apply fleb_spec in D as (_ & _ & D). rewrite key_fzero in D.
    destruct (fsub_key a b FA FB) as [SN SK].
    assert (X : (key (fdiv (fabs (fsub a b)) b) <= 0)%R).
    { destruct (isfin_cases _ SN) as [F|[F|F]].
      - assert (FF : isfin (fabs (fsub a b)) = true) by (destruct (fsub a b); auto). destruct (fdiv_key (fabs (fsub a b)) b FF FB ltac:(lra)) as [_ K]. rewrite K. apply crnd_le0.
        assert (0 <= B2R (fabs (fsub a b)))%R by (unfold fabs; rewrite B2R_Babs; apply Rabs_pos). unfold Rdiv. assert (/ B2R b < 0)%R by now apply Rinv_lt_0_compat. nra.
      - rewrite F. apply inf_quot; auto.
      - rewrite F. apply inf_quot; auto. }
    lra.
Qed.
Print Assumptions C54_negative_refuted.
(** two entries whose parameter went from -50 to -1 with hardly any change in
    SSE: only the better one is kept *)
Example C54_negative_ex : match trim_ks stable_argsort [mkrow 1000 [fofZ (-1)]; mkrow 1001 [fofZ (-50)]] def_ratio def_diff def_rows with Ok l => l = [0] | _ => False end /\
  match trim_ks stable_argsort [mkrow 1000 [fofZ 1]; mkrow 1001 [fofZ 50]] def_ratio def_diff def_rows with Ok l => l = [1; 0] | _ => False end.
Proof. split; vm_compute; reflexivity. Qed.

(** ** C55 *)
Local Open Scope string_scope.
(** [all_s f s]: every character of s satisfies f; [last_s d s]: the last
    character of s, or d (LggProofs.v).  A range p<a>-<b> of numbers stands for
    p<a>, ..., p<b>: in that order, and for nothing if a > b *)
Theorem C55_numbers : forall p a b, p <> "" -> all_s is_word p = true -> is_digit (last_s "x" p) = false ->
  setupNames [p ++ py_str a ++ "-" ++ py_str b] = map (fun n => p ++ py_str n) (seq a (S b - a)).
Proof.
  intros p a b N W L. destruct (str_digits a) as [A1 A2]. destruct (str_digits b) as [B1 B2]. unfold setupNames. cbn [flat_map]. rewrite List.app_nil_r. unfold expand.
  rewrite (range_ok num_tail p (py_str a ++ "-" ++ py_str b) "" (py_str a, py_str b)); auto.
  - unfold numRange. rewrite !int_str, map_map. reflexivity.
  - now apply num_tail_ok.
  - intros x y E NX NY. apply num_no_tail; auto.
    + rewrite E, all_app in W. apply andb_true_iff in W. tauto.
    + rewrite E, last_app in L. now rewrite last_digit_app in L.
Qed.
Print Assumptions C55_numbers.
(** str and int of numbers are inverse, and str is made of digits *)
Theorem C55_decimal : forall n, py_int (py_str n) = n /\ py_str n <> "" /\ all_s is_digit (py_str n) = true.
Proof. intros n. split; [apply int_str|]. destruct (str_digits n). auto. Qed.
Print Assumptions C55_decimal.
Theorem C55_members : forall p a b x, p <> "" -> all_s is_word p = true -> is_digit (last_s "x" p) = false ->
  (In x (setupNames [p ++ py_str a ++ "-" ++ py_str b]) <-> exists n, a <= n <= b /\ x = p ++ py_str n).
Proof.
  intros p a b x N W L. rewrite C55_numbers by auto. rewrite in_map_iff. split.
  - intros (n & <- & I). apply in_seq in I. exists n. split; auto. lia.
  - intros (n & H & ->). exists n. split; auto. apply in_seq. lia.
Qed.
Print Assumptions C55_members.
(** letters likewise *)
Theorem C55_letters : forall p c1 c2, p <> "" -> all_s is_word p = true -> is_lowercase c1 = true -> is_lowercase c2 = true ->
  setupNames [p ++ String c1 ("-" ++ String c2 "")] =
    map (fun n => p ++ String (ascii_of_nat n) "") (seq (nat_of_ascii c1) (S (nat_of_ascii c2) - nat_of_ascii c1)).
Proof.
  intros p c1 c2 N W L1 L2. unfold setupNames. cbn [flat_map]. rewrite List.app_nil_r. unfold expand.
  destruct (range_match num_tail "" (p ++ String c1 ("-" ++ String c2 ""))) as [[q [d1 d2]]|] eqn:E.
  - exfalso. apply range_inv in E as (p' & r & E & _ & _ & _ & T). apply num_tail_inv in T as (-> & _ & N2 & _ & D2).
    assert (X : is_digit (last_s "x" (p ++ String c1 ("-" ++ String c2 ""))) = true).
    { rewrite E, !last_app. apply (last_digit_app d2 (last_s (last_s (last_s "x" p') d1) "-")) in N2 as X. rewrite X. destruct d2 as [|c d2]; [congruence|]. simpl in D2 |- *. apply andb_true_iff in D2 as [D2 D3]. now apply last_all. }
    rewrite last_app in X. simpl in X. unfold is_digit in X. unfold is_lowercase in L2. apply andb_true_iff in X as [_ X]. apply andb_true_iff in L2 as [L2 _]. apply Nat.leb_le in X, L2. lia.
  - rewrite (range_ok letter_tail p (String c1 ("-" ++ String c2 "")) "" (c1, c2)); auto.
    + unfold letterRange. rewrite map_map. reflexivity.
    + simpl. now rewrite L1, L2.
    + intros x y EP NX NY. destruct (letter_tail _) as [[a b]|] eqn:T; auto. apply letter_tail_inv in T as (T & _ & _). apply (f_equal String.length) in T. rewrite app_length_s in T. simpl in T. destruct y; [congruence|]. simpl in T. lia.
Qed.
Print Assumptions C55_letters.
(** any other name stands for itself, and the names given are expanded one
    after the other *)
Theorem C55_other : forall name,
  (forall p d1 d2, p <> "" -> all_s is_word p = true -> d1 <> "" -> d2 <> "" -> all_s is_digit d1 = true -> all_s is_digit d2 = true -> name <> p ++ d1 ++ "-" ++ d2) ->
  (forall p c1 c2, p <> "" -> all_s is_word p = true -> is_lowercase c1 = true -> is_lowercase c2 = true -> name <> p ++ String c1 ("-" ++ String c2 "")) ->
  setupNames [name] = [name].
Proof.
  intros name H1 H2. unfold setupNames. cbn [flat_map]. rewrite List.app_nil_r. unfold expand.
  destruct (range_match num_tail "" name) as [[q [d1 d2]]|] eqn:E.
  - exfalso. apply range_inv in E as (p & r & -> & _ & N & W & T). apply num_tail_inv in T as (-> & A & B & C & D). now apply (H1 p d1 d2).
  - destruct (range_match letter_tail "" name) as [[q [c1 c2]]|] eqn:E2; auto.
    exfalso. apply range_inv in E2 as (p & r & -> & _ & N & W & T). apply letter_tail_inv in T as (-> & A & B). now apply (H2 p c1 c2).
Qed.
Print Assumptions C55_other.
Theorem C55_concat : forall a b, setupNames (a ++ b)%list = (setupNames a ++ setupNames b)%list.
Proof. intros a b. apply flat_map_app. Qed.
Print Assumptions C55_concat.
Example C55_ex : setupNames ["x1-3"; "vba-c"; "y_9-11"; "k5-4"; "foo"; "a-c"; "Ib1-b2"] =
  ["x1"; "x2"; "x3"; "vba"; "vbb"; "vbc"; "y_9"; "y_10"; "y_11"; "foo"; "a-c"; "Ib1-b2"] /\ all_s is_word "y_" = true /\ is_digit (last_s "x" "y_") = false.
Proof. repeat split; vm_compute; reflexivity. Qed.
(** leading zeros are lost, and a name that is all digits is split after its
    first digit *)
Theorem C55_zeros_refuted : setupNames ["x01-03"] = ["x1"; "x2"; "x3"] /\ setupNames ["12-3"] = ["12"; "13"].
Proof. split; vm_compute; reflexivity. Qed.
Print Assumptions C55_zeros_refuted.
(** "You can also specify ranges like x1-3": on the command line a range never
    selects anything, as it is first used as a glob pattern for the names in the
    log, which have no hyphen *)
Definition literal (glob : string -> string -> bool) (p : string) : Prop := forall n, glob n p = true -> n = p.
Lemma filter_none : forall {A} (f : A -> bool) l, (forall x, In x l -> f x = false) -> filter f l = [].
Proof. intros A f. induction l as [|x l IH]; simpl; intros H; auto. rewrite H by auto. auto. Qed.
Theorem C55_command_line_refuted : forall argsort glob es args names rows, args <> [] ->
  (forall p, In p args -> literal glob p /\ all_s is_word p = false) ->
  (forall e n, In e es -> In n (map fst (snd e)) -> all_s is_word n = true) ->
  grepper_table argsort glob es args = Ok (names, rows) -> names = [].
Proof.
  intros argsort glob es args names rows NE L W. unfold grepper_table, grepper_names. destruct args as [|p0 args0] eqn:EA; [congruence|]. rewrite <- EA in *. clear EA NE.
  assert (G : forall l acc, (forall p, In p l -> literal glob p /\ all_s is_word p = false) -> glob_loop glob es l acc = Ok acc \/ glob_loop glob es l acc = Raise TypeError).
  { induction l as [|p l IH]; intros acc HL; cbn [glob_loop]; auto. unfold globNames. destruct es as [|[s pd] es']; auto. rewrite filter_none.
    - apply IH. intros; apply HL; simpl; auto.
    - intros n I. destruct (glob n p) eqn:E; auto. destruct (HL p (or_introl eq_refl)) as [HL1 HL2]. apply HL1 in E. subst n.
      rewrite (W (s, pd) p) in HL2; [discriminate|simpl; auto|]. eapply Permutation_in; [apply ssort_perm|exact I]. }
  destruct (G args [] L) as [-> | ->]; cbn [bind]; [|discriminate]. cbn. destruct (load_rows [] es); cbn [bind]; [|discriminate]. destruct (trim _ _ _ _ _); cbn [bind]; [|discriminate]. congruence.
Qed.
Print Assumptions C55_command_line_refuted.
Example C55_command_line_ex : let es := [(fone, [("x1", (fone, 0%nat)); ("x2", (fone, 1%nat))])] in
  (forall p, In p ["x1-2"] -> literal String.eqb p /\ all_s is_word p = false) /\
  match grepper_table stable_argsort String.eqb es ["x1-2"] with Ok (names, rows) => names = [] /\ length rows = 1%nat | _ => False end /\
  match grepper_table stable_argsort String.eqb es ["x2"; "x1"] with Ok (names, rows) => names = ["x1"; "x2"] | _ => False end.
Proof. split; [|vm_compute; auto]. intros p [<-|[]]. split; [intros n H; now apply String.eqb_eq|reflexivity]. Qed.

(** ** C59 *)
Local Open Scope nat_scope.
Local Open Scope list_scope.
(** [better es s]: the number of entries with an SSE lower than s;
    [starred pd n]: n has a star in pd; [distinct_SSE es]: no NaN and no two
    equal SSEs (LggProofs.v) *)
Theorem C59_starred : forall N es, distinct_SSE es ->
  Sorted sle (starredNames N es) /\ NoDup (starredNames N es) /\
  forall n, In n (starredNames N es) <-> exists e, In e es /\ better es (fst e) < N /\ starred (snd e) n.
Proof.
  intros N es D. unfold starredNames. destruct (starred_fold (fold_left (star_step N) es []) [] (NoDup_nil _)) as [A B]. set (r := fold_left (fun names (e : entry) => add_starred names (snd e)) (fold_left (star_step N) es []) []) in *.
  split; [apply ssort_sorted|]. split; [eapply Permutation_NoDup; [apply Permutation_sym, ssort_perm|auto]|]. intros n.
  assert (X : In n (ssort r) <-> In n r) by (split; apply Permutation_in; [|apply Permutation_sym]; apply ssort_perm). apply iff_trans with (1 := X). apply iff_trans with (1 := B n). clear X B. destruct (star_inv N es _ D eq_refl) as (I0 & _). split.
  - intros [[]|(e & E & S)]. exists e. split; auto. split; auto. now apply star_rank; auto.
  - intros (e & E & L & S). right. exists e. split; auto. now apply star_rank.
Qed.
Print Assumptions C59_starred.
Definition ent (m : Z) (l : list (string * nat)) : entry := (fofZ m, map (fun x => (fst x, (fone, snd x))) l).
Example C59_ex : let es := [ent 9 [("a", 1)]; ent 7 [("b", 1); ("c", 0)]; ent 8 [("d", 2)]; ent 3 [("e", 1)]; ent 5 [("b", 2); ("f", 0)]] in
  distinct_SSE es /\ starredNames 4 es = ["b"; "d"; "e"]%string.
Proof.
  split; [|vm_compute; reflexivity]. split; [intros e H; simpl in H; intuition subst; reflexivity|]. repeat constructor; reflexivity.
Qed.
(** with equal SSEs the names of the lowest entries can be missing *)
Theorem C59_equal_refuted : exists es n e, In e es /\ better es (fst e) < 4 /\ starred (snd e) n /\ ~ In n (starredNames 4 es).
Proof.
  exists [ent 1 [("a", 1)]; ent 1 [("b", 1)]]%string, "a"%string, (ent 1 [("a", 1)]%string). split; [simpl; auto|]. split; [vm_compute; lia|]. split; [exists fone, 1; simpl; auto|].
  intros H. assert (E : starredNames 4 [ent 1 [("a", 1)]; ent 1 [("b", 1)]]%string = ["b"%string]) by (vm_compute; reflexivity). rewrite E in H. simpl in H. intuition discriminate.
Qed.
Print Assumptions C59_equal_refuted.
(** and the stars of a bad entry can be shown: after an equal SSE made the dict
    shrink, the next entry is taken in whatever its SSE *)
Theorem C59_worse_refuted : exists es n, In n (starredNames 4 es) /\
  forall e, In e es -> starred (snd e) n -> 4 < better es (fst e).
Proof.
  exists [ent 1 []; ent 2 []; ent 3 []; ent 4 []; ent 1 []; ent 9 [("z", 1)]]%string, "z"%string.
  split; [vm_compute; auto|]. intros e I (v & k & S & _). simpl in I. intuition subst; simpl in S; intuition try discriminate. vm_compute. lia.
Qed.
Print Assumptions C59_worse_refuted.

(** ** C60 *)
(** the names shown for given patterns: those of the first entry that match one
    of the patterns, each once, sorted *)
Theorem C60_names : forall glob e es args, args <> [] -> NoDup (map fst (snd e)) ->
  exists names, grepper_names glob (e :: es) args = Ok names /\ Sorted sle names /\ NoDup names /\
    forall n, In n names <-> In n (map fst (snd e)) /\ exists p, In p args /\ glob n p = true.
Proof.
  intros glob [s pd] es args NE ND. unfold grepper_names. destruct args as [|p0 args0] eqn:EA; [congruence|]. rewrite <- EA in *. clear EA NE.
  assert (G : forall args acc, NoDup acc -> exists l, glob_loop glob ((s, pd) :: es) args acc = Ok l /\ NoDup l /\
    forall n, In n l <-> In n acc \/ In n (map fst pd) /\ exists p, In p args /\ glob n p = true).
  { clear args. induction args as [|p args IH]; intros acc NA; cbn [glob_loop].
    - exists acc. split; auto. split; auto. intros n. split; auto. intros [H|(_ & q & [] & _)]; auto.
    - cbn [globNames]. assert (F : forall l acc, NoDup acc -> let r := fold_left (fun names n => if smem n names then names else names ++ [n]) l acc in NoDup r /\ forall n, In n r <-> In n acc \/ In n l).
      { clear. induction l as [|x l IH]; intros acc NA; cbn [fold_left]; [simpl; split; auto; tauto|]. destruct (smem x acc) eqn:E.
        - destruct (IH acc NA) as [A B]. split; auto. intros n. rewrite B. simpl. apply smem_In in E. split; [tauto|]. intros [H|[<-|H]]; auto.
        - destruct (IH (acc ++ [x])) as [A B]; [apply nodup_snoc; auto; intros I; apply smem_In in I; congruence|]. split; auto. intros n. rewrite B, in_app_iff. simpl. tauto. }
      destruct (F (filter (fun n => glob n p) (ssort (map fst pd))) acc NA) as [A B]. destruct (IH _ A) as (l & E & C & D). exists l. split; auto. split; auto. intros n. rewrite D, B, filter_In.
      assert (X : In n (ssort (map fst pd)) <-> In n (map fst pd)) by (split; apply Permutation_in; [|apply Permutation_sym]; apply ssort_perm). rewrite X. simpl. split.
      + intros [[H|[H1 H2]]|[H1 (q & Q1 & Q2)]]; auto; right; split; auto; [exists p|exists q]; auto.
      + intros [H|[H1 (q & [<-|Q1] & Q2)]]; auto. right. split; eauto. }
  destruct (G args [] (NoDup_nil _)) as (l & E & C & D). rewrite E. cbn [bind snd]. exists (ssort l). split; auto. split; [apply ssort_sorted|]. split; [eapply Permutation_NoDup; [apply Permutation_sym, ssort_perm|auto]|].
  intros n. assert (X : In n (ssort l) <-> In n l) by (split; apply Permutation_in; [|apply Permutation_sym]; apply ssort_perm). rewrite X, D. simpl. tauto.
Qed.
Print Assumptions C60_names.
Lemma load_row_ok : forall names pd v st, load_row names pd = Ok (v, st) -> Forall2 (fun n x => pd_get pd n = Some x) names (combine v st) /\ length v = length names /\ length st = length names.
Proof.
  induction names as [|n names IH]; intros pd v st; cbn [load_row]; [intros H; injection H as <- <-; simpl; auto|]. destruct (pd_get pd n) as [[x k]|] eqn:E; [|discriminate]. destruct (load_row names pd) as [[v' st']|] eqn:E2; cbn [bind]; [|discriminate].
  intros H. injection H as <- <-. destruct (IH _ _ _ E2) as (A & B & C). simpl. auto.
Qed.
Lemma load_row_raise : forall names pd e, load_row names pd = Raise e <-> e = KeyError /\ exists n, In n names /\ pd_get pd n = None.
Proof.
  induction names as [|n names IH]; intros pd e; cbn [load_row]; [split; [discriminate|intros (_ & n & [] & _)]|]. destruct (pd_get pd n) as [[x k]|] eqn:E.
  - destruct (load_row names pd) as [[v' st']|e'] eqn:E2; cbn [bind].
    + split; [discriminate|]. intros (-> & m & [<-|I] & M); [congruence|]. assert (X : load_row names pd = Raise KeyError) by (apply IH; eauto). congruence.
    + specialize (IH pd e'). rewrite E2 in IH. destruct IH as [IH _]. destruct (IH eq_refl) as (-> & m & I & M). split.
      * intros H. injection H as <-. split; auto. exists m. simpl. auto.
      * intros (-> & _). auto.
  - split; [intros H; injection H as <-; split; auto; exists n; simpl; auto|]. intros (-> & _). auto.
Qed.
(** entry [e] as the row [r] under the columns [names] *)
Definition shows (names : list string) (e : entry) (r : row) : Prop :=
  rSSE r = fst e /\ length (rvals r) = length names /\ length (rstars r) = length names /\
  Forall2 (fun n x => pd_get (snd e) n = Some x) names (combine (rvals r) (rstars r)).
Lemma load_rows_ok : forall names es rows, load_rows names es = Ok rows -> Forall2 (shows names) es rows.
Proof.
  intros names. induction es as [|[s pd] es IH]; intros rows; cbn [load_rows]; [intros H; injection H as <-; constructor|]. destruct (load_row names pd) as [[v st]|] eqn:E; cbn [bind]; [|discriminate].
  destruct (load_rows names es) as [l|]; cbn [bind]; [|discriminate]. intros H. injection H as <-. constructor; auto. destruct (load_row_ok _ _ _ _ E) as (A & B & C). repeat split; auto.
Qed.
Lemma load_rows_raise : forall names es e, load_rows names es = Raise e <-> e = KeyError /\ exists x n, In x es /\ In n names /\ pd_get (snd x) n = None.
Proof.
  intros names. induction es as [|[s pd] es IH]; intros e; cbn [load_rows]; [split; [discriminate|intros (_ & x & n & [] & _)]|]. destruct (load_row names pd) as [r|e'] eqn:E; cbn [bind].
  - destruct (load_rows names es) as [l|e'] eqn:E2; cbn [bind].
    + split; [discriminate|]. intros (-> & x & n & [<-|I] & J & K); [assert (X : load_row names pd = Raise KeyError) by (apply load_row_raise; eauto); congruence|].
      assert (X : @Ok (list row) l = Raise KeyError) by (apply IH; split; auto; exists x, n; auto). discriminate.
    + destruct (IH e') as [A _]. destruct (A eq_refl) as (-> & x & n & I & J & K). split; [intros H; injection H as <-; split; auto; exists x, n; simpl; auto|]. intros (-> & _). auto.
  - apply load_row_raise in E as (-> & n & I & J). split; [intros H; injection H as <-; split; auto; exists (s, pd), n; simpl; auto|]. intros (-> & _). auto.
Qed.
Lemma list_eq_nil : forall {A} (l : list A), l = [] \/ l <> [].
Proof. intros A [|]; auto. right. discriminate. Qed.
(** each row of the table shows an entry of the log: its SSE, and under each name
    the value and stars that the entry has for that name *)
Theorem C60_rows : forall argsort glob es args names rows, is_argsort argsort -> (forall e, In e es -> isnan (fst e) = false) ->
  grepper_table argsort glob es args = Ok (names, rows) -> rows <> [] /\ forall r, In r rows -> exists e, In e es /\ shows names e r.
Proof.
  intros argsort glob es args names rows AS N. unfold grepper_table. destruct (grepper_names glob es args) as [l|]; cbn [bind]; [|discriminate]. destruct (load_rows (setupNames l) es) as [all|] eqn:E; cbn [bind]; [|discriminate].
  destruct (trim argsort all def_ratio def_diff def_rows) as [kept|] eqn:T; cbn [bind]; [|discriminate]. intros H. injection H as <- <-.
  assert (F := load_rows_ok _ _ _ E). destruct (list_eq_nil all) as [->|NE]; [discriminate|].
  assert (G : forall r, In r all -> exists e, In e es /\ shows (setupNames l) e r).
  { clear -F. induction F; intros r []; [subst; exists x; simpl; auto|]. destruct (IHF r H0) as (e & A & B). exists e. simpl. auto. }
  destruct (C54_trim argsort all def_ratio def_diff def_rows AS NE) as (sig & k0 & best & cut & KS & TE & ES & Z & LE & C & _ & HD & ND & V & _).
  { intros r I. destruct (G r I) as (e & A & (B & _)). rewrite B. auto. }
  rewrite TE in T. injection T as <-. split.
  - intros X. apply map_eq_nil in X. subst KS. simpl in ES. rewrite List.app_nil_r in ES. subst cut. destruct C as [->|C]; [discriminate|discriminate].
  - intros r I. apply in_map_iff in I as (k & <- & I). apply G, nth_In, V. rewrite ES. apply in_or_app. right. now apply in_rev in I.
Qed.
Print Assumptions C60_rows.
(** when there is no table: no entry in the log, or a name that is missing in
    some entry *)
Theorem C60_fails : forall argsort glob es args e, is_argsort argsort -> (forall x, In x es -> isnan (fst x) = false) ->
  (grepper_table argsort glob es args = Raise e <->
   es = [] /\ (args = [] /\ e = ValueError \/ args <> [] /\ e = TypeError) \/
   exists names x n, grepper_names glob es args = Ok names /\ In x es /\ In n (setupNames names) /\ pd_get (snd x) n = None /\ e = KeyError).
Proof.
  intros argsort glob es args e AS N. unfold grepper_table. destruct es as [|e0 es0] eqn:ES.
  - split.
    + intros H. left. split; auto. destruct args as [|p args]; [left|right]; cbn in H; injection H as <-; split; auto; discriminate.
    + intros [(_ & [(-> & ->)|(NE & ->)])|(names & x & n & _ & [] & _)]; auto. destruct args; [congruence|]. reflexivity.
  - rewrite <- ES in *. assert (NE : es <> []) by (rewrite ES; discriminate). clear ES.
    assert (GN : exists l, grepper_names glob es args = Ok l).
    { unfold grepper_names. destruct args as [|p args]; eauto. assert (X : forall args acc, exists l, glob_loop glob es args acc = Ok l).
      { clear -NE. induction args as [|p args IH]; intros acc; cbn [glob_loop]; eauto. unfold globNames. destruct es as [|[s pd] es]; [congruence|]. auto. }
      destruct (X (p :: args) []) as [l ->]. cbn [bind]. eauto. }
    destruct GN as [l GN]. rewrite GN. cbn [bind]. destruct (load_rows (setupNames l) es) as [all|e'] eqn:E; cbn [bind].
    + assert (F := load_rows_ok _ _ _ E). assert (NA : all <> []) by (intros ->; apply NE; inversion F; reflexivity).
      destruct (C54_trim argsort all def_ratio def_diff def_rows AS NA) as (sig & k0 & best & cut & KS & TE & _).
      { clear -F N. induction F; intros r []; [subst; destruct H as [-> _]; apply N; simpl; auto|apply IHF; auto; intros; apply N; simpl; auto]. }
      rewrite TE. cbn [bind]. split; [discriminate|]. intros [(X & _)|(names & x & n & A & B & C & D & _)]; [congruence|]. injection A as <-.
      assert (X : load_rows (setupNames l) es = Raise KeyError) by (apply load_rows_raise; split; auto; exists x, n; auto). congruence.
    + apply load_rows_raise in E as (-> & x & n & A & B & C). split.
      * intros H. injection H as <-. right. exists l, x, n. auto 6.
      * intros [(X & _)|(_ & _ & _ & _ & _ & _ & _ & ->)]; [congruence|auto].
Qed.
Print Assumptions C60_fails.
Example C60_ex : let es := [(fofZ 5, [("b", (fofZ 2, 1)); ("a", (fofZ 3, 0))]); (fofZ 4, [("a", (fofZ 7, 2)); ("b", (fone, 0))])]%string in
  match grepper_table stable_argsort (fun _ _ => true) es ["*"%string] with Ok (names, rows) => names = ["a"; "b"]%string /\ map rstars rows = [[0; 1]; [2; 0]] | _ => False end /\
  grepper_table stable_argsort (fun _ _ => true) ((fofZ 5, [("c"%string, (fone, 0))]) :: es) ["*"%string] = Raise KeyError.
Proof. split; [|unfold grepper_table]; vm_compute; auto. Qed.

(** ** C61 *)
Local Open Scope string_scope.
Lemma spaces_length : forall n, String.length (spaces n) = n.
Proof.
  intros n. unfold spaces. induction n as [|n IH]; auto. cbn [repeat]. destruct n; [reflexivity|]. cbn [repeat String.concat] in *. rewrite app_length_s, app_length_s, IH. reflexivity.
Qed.
Lemma rep_star_length : forall n, String.length (String.concat "" (repeat "*" n)) = n.
Proof.
  intros n. induction n as [|n IH]; auto. cbn [repeat]. destruct n; [reflexivity|]. cbn [repeat String.concat] in *. rewrite app_length_s, app_length_s, IH. reflexivity.
Qed.
Lemma rj_length : forall w x, String.length x <= w -> String.length (rj w x) = w.
Proof. intros w x H. unfold rj. rewrite app_length_s, spaces_length. lia. Qed.
Lemma concat_cons : forall sep x l, String.concat sep (x :: l) = match l with [] => x | _ => x ++ sep ++ String.concat sep l end.
Proof. intros sep x [|y l]; reflexivity. Qed.
Lemma concat_nosep : forall l m, String.concat "" (l ++ m)%list = String.concat "" l ++ String.concat "" m.
Proof.
  induction l as [|x l IH]; intros m; [reflexivity|]. change ((x :: l) ++ m)%list with (x :: l ++ m)%list. rewrite !concat_cons. specialize (IH m). destruct l as [|y l].
  - change ([] ++ m)%list with m. destruct m; [now rewrite app_nil_s|reflexivity].
  - change ((y :: l) ++ m)%list with (y :: l ++ m)%list in *. cbv beta iota. rewrite IH, !app_assoc_s. reflexivity.
Qed.
(** with texts no wider than the columns and no more stars than fit between
    them, the heading and the values of parameter number j end at the same
    column in every line, and so do SSE and its values *)
Theorem C61_heading : forall w sep l1 n l2, (forall x, In x ("SSE" :: l1 ++ n :: l2)%list -> String.length x <= w) ->
  exists pre post, heading w sep (l1 ++ n :: l2)%list = pre ++ n ++ post /\
    String.length (pre ++ n) = (length l1 + 2) * w + (length l1 + 1) * sep.
Proof.
  intros w sep l1 n l2 H. unfold heading. cbn [map]. rewrite concat_cons. destruct (map (rj w) (l1 ++ n :: l2)%list) as [|y l] eqn:E; [destruct l1; discriminate|]. rewrite <- E. clear E.
  assert (G : exists pre post, String.concat (spaces sep) (map (rj w) (l1 ++ n :: l2)%list) = pre ++ n ++ post /\ String.length (pre ++ n) = (length l1 + 1) * w + length l1 * sep).
  { assert (H' : forall x, In x (l1 ++ n :: l2)%list -> String.length x <= w) by (intros; apply H; simpl; auto). clear H. induction l1 as [|x l1 IH].
    - simpl app. cbn [map]. rewrite concat_cons. exists (spaces (w - String.length n)). assert (String.length n <= w) by (apply H'; simpl; auto).
      destruct (map (rj w) l2) as [|z l3]; [exists ""|exists (spaces sep ++ String.concat (spaces sep) (z :: l3))]; unfold rj; (split; [rewrite ?app_nil_s, ?app_assoc_s; reflexivity|rewrite app_length_s, spaces_length; simpl; lia]).
    - simpl app. cbn [map]. rewrite concat_cons. destruct IH as (pre & post & EQ & L); [intros; apply H'; simpl; auto|]. destruct (map (rj w) (l1 ++ n :: l2)%list) as [|y' l'] eqn:E; [destruct l1; discriminate|]. rewrite EQ.
      exists (rj w x ++ spaces sep ++ pre), post. split; [now rewrite !app_assoc_s|]. rewrite app_length_s in L. rewrite !app_length_s, spaces_length, rj_length by (apply H'; simpl; auto). simpl length. lia. }
  destruct G as (pre & post & -> & L). exists (rj w "SSE" ++ spaces sep ++ pre), post. split; [now rewrite !app_assoc_s|]. rewrite app_length_s in L. rewrite !app_length_s, spaces_length, rj_length by (apply H; simpl; auto). lia.
Qed.
Print Assumptions C61_heading.
Theorem C61_row : forall w sep sse c1 x k c2, (forall y, In y (sse :: map fst (c1 ++ (x, k) :: c2))%list -> String.length y <= w) ->
  (forall y, In y c1 -> snd y <= sep) ->
  exists pre post, table_row w sep sse (c1 ++ (x, k) :: c2)%list = pre ++ x ++ post /\
    String.length (pre ++ x) = (length c1 + 2) * w + (length c1 + 1) * sep.
Proof.
  intros w sep sse c1 x k c2 H HS. unfold table_row. rewrite map_app, concat_nosep. cbn [map]. rewrite concat_cons.
  assert (C : String.length (String.concat "" (map (cell w sep) c1)) = length c1 * (w + sep)).
  { assert (H' : forall y, In y c1 -> String.length (fst y) <= w) by (intros y Y; apply H; right; apply in_map, in_or_app; auto). clear H. induction c1 as [|y c1 IH]; auto. change (map (cell w sep) (y :: c1)) with ([cell w sep y] ++ map (cell w sep) c1)%list. rewrite concat_nosep, app_length_s, IH by (intros; auto using in_cons).
    simpl String.concat. unfold cell. rewrite !app_length_s, spaces_length, rep_star_length, rj_length by (apply H'; simpl; auto). specialize (HS y (or_introl eq_refl)). simpl length. lia. }
  assert (X : String.length x <= w) by (apply H; right; apply in_map_iff; exists (x, k); split; auto; apply in_or_app; simpl; auto).
  set (A := String.concat "" (map (cell w sep) c1)) in *.
  assert (E : exists post, match map (cell w sep) c2 with [] => cell w sep (x, k) | _ => cell w sep (x, k) ++ "" ++ String.concat "" (map (cell w sep) c2) end = (spaces (w - String.length x) ++ x) ++ post).
  { unfold cell at 2 3, rj. cbn [fst snd]. destruct (map (cell w sep) c2); eexists; rewrite ?app_assoc_s; reflexivity. }
  destruct E as [post E]. destruct (map (cell w sep) c2) eqn:E2; cbn iota in E |- *; rewrite ?E; exists (rj w sse ++ spaces sep ++ A ++ spaces (w - String.length x)), post; (split; [now rewrite !app_assoc_s|]);
  rewrite !app_length_s, !spaces_length, C, rj_length by (apply H; simpl; auto); lia.
Qed.
Print Assumptions C61_row.
Example C61_ex : heading 10 3 ["a"; "foo"] = "       SSE            a          foo" /\ table_row 10 3 "12.5" [("0.25", 1%nat); ("7", 2%nat)] = "      12.5         0.25*           7** ".
Proof. split; vm_compute; reflexivity. Qed.
(** a number that needs more than ten characters, as -1.2346e-05 does, moves
    the rest of its line *)
Theorem C61_wide_refuted : exists pre post, table_row 10 3 "1" [("-1.2346e-05", 0%nat); ("7", 0%nat)] = pre ++ "7" ++ post /\ post = "   " /\
  String.length (pre ++ "7") <> 3 * 10 + 2 * 3.
Proof. exists "         1   -1.2346e-05            ", "   ". split; [vm_compute; reflexivity|]. split; auto. vm_compute. discriminate. Qed.
Print Assumptions C61_wide_refuted.

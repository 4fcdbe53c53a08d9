(** * Property C116: the reports of the examples. *)
From Coq Require Import List Bool Arith ZArith Ascii String Reals Lia Lra.
From Flocq Require Import Core BinarySingleNaN.
From Verif Require Import FanModel FanProofs Flt FltMore Py ExamModel ExamProps PairModel PairProps PlotModel PlotProofs PlotProps FitModel FitProps ShowModel.
Import ListNotations.
Local Open Scope R_scope.
#[local] Arguments fadd : simpl never.
#[local] Arguments fsub : simpl never.
#[local] Arguments fmul : simpl never.
#[local] Arguments fdiv : simpl never.
#[local] Arguments fofZ : simpl never.

Definition mid60 (x : f64) : Prop := isfin x = true /\ Rabs (B2R x) <= bpow radix2 60.
Lemma two60 : 1000 <= bpow radix2 60.
Proof. apply Rle_trans with (bpow radix2 10); [simpl; lra|apply bpow_le; lia]. Qed.
Lemma val_of e x r : (-1074 <= e < 1024)%Z -> isnan x = false -> key x = crnd r -> Rabs r <= bpow radix2 e -> isfin x = true /\ B2R x = crnd r /\ Rabs (B2R x) <= bpow radix2 e.
Proof.
  intros E N K B. apply Rabs_le_inv in B. assert (C := crnd_bpow e ltac:(lia)).
  assert (U : crnd r <= bpow radix2 e) by (rewrite <- C; apply crnd_mono; lra).
  assert (L : - bpow radix2 e <= crnd r) by (rewrite <- C, <- crnd_opp; apply crnd_mono; lra).
  assert (G := big_gt e ltac:(lia)).
  assert (F : isfin x = true) by (apply fin_key; auto; rewrite K; lra). split; auto. rewrite <- K, key_fin by auto. split; auto. rewrite <- key_fin, K by auto. apply Rabs_le. lra.
Qed.
Definition lin_step (a b : f64) : f64 := fdiv (fsub b a) (fofZ 199).
Definition lin_at (a b : f64) (k : nat) : f64 := fadd (fmul (fofZ (Z.of_nat k)) (lin_step a b)) a.
Lemma q3 : q52 ^ 3 * 198 <= 199.
Proof.
  assert (H : q52 <= 1 + / 1024). { unfold q52. assert (bpow radix2 (-52) <= bpow radix2 (-10)) by (apply bpow_le; lia). replace (bpow radix2 (-10)) with (/ 1024) in H by (simpl; lra). lra. }
  assert (G := q52_gt). assert (q52 ^ 3 <= (1 + / 1024) ^ 3) by (apply pow_incr; lra). lra.
Qed.
Section Lin.
Variables a b : f64.
Hypothesis A : mid60 a.
Hypothesis B : mid60 b.
Hypothesis D : 1 <= B2R b - B2R a.
Lemma delta_ok : isfin (fsub b a) = true /\ 1 <= B2R (fsub b a) <= bpow radix2 61 /\ B2R (fsub b a) = crnd (B2R b - B2R a).
Proof.
  destruct A as [AF AB], B as [BF BB]. apply Rabs_le_inv in AB, BB. destruct (fsub_key b a BF AF) as [N K].
  destruct (val_of 61 _ _ ltac:(lia) N K) as (F & V & W). { apply Rabs_le. change 61%Z with (1 + 60)%Z. rewrite bpow_plus. change (bpow radix2 1) with 2. lra. }
  split; auto. split; [|exact V]. apply Rabs_le_inv in W. split; [|lra]. rewrite V. change 1 with (bpow radix2 0). rewrite <- (crnd_bpow 0) by lia. apply crnd_mono. change (bpow radix2 0) with 1. exact D.
Qed.
Lemma step_ok : isfin (lin_step a b) = true /\ / 256 <= B2R (lin_step a b) <= bpow radix2 61 /\ 198 * B2R (lin_step a b) <= (B2R b - B2R a) * q52 ^ 2 * (198 / 199).
Proof.
  destruct delta_ok as (F & [L U] & V). destruct (fofZ_val 199 ltac:(lia)) as [F9 V9]. unfold lin_step.
  destruct (fdiv_key (fsub b a) (fofZ 199) F F9 ltac:(lra)) as [N K]. rewrite V9 in K.
  assert (T : bpow radix2 61 <= bpow radix2 1000) by (apply bpow_le; lia). assert (T0 : bpow radix2 (-1000) <= / 256) by (change (/ 256) with (bpow radix2 (-8)); apply bpow_le; lia).
  destruct (val_of 61 _ _ ltac:(lia) N K) as (FS & VS & WS). { apply Rabs_le. lra. }
  split; auto. apply Rabs_le_inv in WS. split; [split; [|lra]|].
  - rewrite VS. change (/ 256) with (bpow radix2 (-8)). rewrite <- (crnd_bpow (-8)) by lia. apply crnd_mono. change (bpow radix2 (-8)) with (/ 256). lra.
  - destruct (near_rnd (B2R (fsub b a) / 199)) as (_ & _ & N1 & _); [lra|].
    assert (BU : B2R b - B2R a <= bpow radix2 1000). { destruct A as [_ AB], B as [_ BB]. apply Rabs_le_inv in AB, BB. apply Rle_trans with (bpow radix2 61); [change 61%Z with (1 + 60)%Z; rewrite bpow_plus; change (bpow radix2 1) with 2; lra|exact T]. }
    destruct (near_rnd (B2R b - B2R a)) as (_ & _ & N2 & _); [split; [apply Rle_trans with (/ 256); [exact T0|lra]|exact BU]|]. rewrite <- V in N2. rewrite <- VS in N1. cbn [pow] in *. rewrite Rmult_1_r in *.
    assert (G := q52_gt). set (d := B2R (fsub b a)) in *. set (s := B2R (fdiv (fsub b a) (fofZ 199))) in *. set (e := B2R b - B2R a) in *.
    assert (s * 199 <= d * q52) by lra. assert (d * q52 <= e * q52 * q52) by (apply Rmult_le_compat_r; lra). lra.
Qed.
Lemma at_ok k : (k <= 198)%nat -> isfin (lin_at a b k) = true /\ B2R (lin_at a b k) = crnd (crnd (INR k * B2R (lin_step a b)) + B2R a) /\ B2R a <= B2R (lin_at a b k) <= B2R b.
Proof.
  intros K. destruct step_ok as (F & [L U] & X). destruct (fofZ_val (Z.of_nat k)) as [FK VK]; [lia|]. rewrite <- INR_IZR_INZ in VK.
  assert (KB : 0 <= INR k <= 198). { split; [apply pos_INR|]. replace 198 with (INR 198) by (simpl; lra). now apply le_INR. }
  destruct (fmul_key _ _ FK F) as [N E]. rewrite VK in E.
  assert (P0 : 0 <= INR k * B2R (lin_step a b)) by (apply Rmult_le_pos; lra).
  assert (S70 : bpow radix2 70 = 512 * bpow radix2 61) by (change 70%Z with (9 + 61)%Z; rewrite bpow_plus; f_equal; simpl; lra).
  assert (PU : INR k * B2R (lin_step a b) <= 198 * B2R (lin_step a b)) by (apply Rmult_le_compat_r; lra).
  destruct (val_of 70 _ _ ltac:(lia) N E) as (FM & VM & WM). { apply Rabs_le. lra. }
  destruct (fadd_key _ a FM (proj1 A)) as [N2 E2]. destruct A as [AF AB], B as [BF BB]. apply Rabs_le_inv in AB, BB, WM.
  assert (M70 : bpow radix2 60 <= bpow radix2 70) by (apply bpow_le; lia). assert (M71 : bpow radix2 71 = 2 * bpow radix2 70) by (change 71%Z with (1 + 70)%Z; rewrite bpow_plus; reflexivity).
  destruct (val_of 71 _ _ ltac:(lia) N2 E2) as (FA & VA & _). { apply Rabs_le. lra. }
  unfold lin_at. split; [exact FA|]. split; [rewrite VA, VM; reflexivity|]. rewrite VA.
  assert (Y0 : 0 <= B2R (fmul (fofZ (Z.of_nat k)) (lin_step a b))) by (rewrite VM; now apply crnd_ge0).
  split; [rewrite <- (crnd_B2R a) at 1; apply crnd_mono; lra|]. rewrite <- (crnd_B2R b). apply crnd_mono. rewrite VM.
  assert (Y1 : crnd (INR k * B2R (lin_step a b)) <= B2R b - B2R a); [|lra].
  apply Rle_trans with (crnd (198 * B2R (lin_step a b))); [now apply crnd_mono|].
  destruct (near_rnd (198 * B2R (lin_step a b))) as (_ & _ & N1 & _).
  { split; [apply Rle_trans with (/ 256); [change (/ 256) with (bpow radix2 (-8)); apply bpow_le; lia|lra]|]. apply Rle_trans with (bpow radix2 70); [lra|apply bpow_le; lia]. }
  cbn [pow] in N1. rewrite Rmult_1_r in N1. assert (G := q52_gt). assert (Q := q3). cbn [pow] in Q, X. rewrite !Rmult_1_r in *.
  assert (Z : 198 * B2R (lin_step a b) * q52 <= (B2R b - B2R a) * (q52 * q52) * (198 / 199) * q52) by (apply Rmult_le_compat_r; lra).
  assert (W : (B2R b - B2R a) * (q52 * q52) * (198 / 199) * q52 = (B2R b - B2R a) * (q52 * (q52 * q52) * 198 / 199)) by (unfold Rdiv; ring).
  assert (V : (B2R b - B2R a) * (q52 * (q52 * q52) * 198 / 199) <= (B2R b - B2R a) * 1) by (apply Rmult_le_compat_l; lra). lra.
Qed.
Lemma lin_eq : linspace a b N_curve_plot = map (lin_at a b) (seq 0 199) ++ [b].
Proof.
  unfold linspace, N_curve_plot. change (200 - 1)%nat with 199%nat. cbv zeta. change (Z.of_nat 199) with 199%Z. fold (lin_step a b).
  assert (E : feqb (lin_step a b) fzero = false).
  { destruct step_ok as (F & [L _] & _). apply not_true_is_false. intros H. apply feqb_spec in H as (_ & _ & H). rewrite key_fin, key_fzero in H by exact F. lra. }
  rewrite E. reflexivity.
Qed.
Lemma lin_nth i : (i < 200)%nat -> nth i (linspace a b N_curve_plot) fzero = if (i <? 199)%nat then lin_at a b i else b.
Proof.
  intros I. rewrite lin_eq. destruct (Nat.ltb_spec i 199) as [L|L].
  - rewrite app_nth1 by (rewrite map_length, seq_length; exact L). rewrite (nth_indep _ _ (lin_at a b 0)) by (rewrite map_length, seq_length; exact L). rewrite map_nth, seq_nth by exact L. reflexivity.
  - rewrite app_nth2 by (rewrite map_length, seq_length; exact L). rewrite map_length, seq_length. replace (i - 199)%nat with 0%nat by lia. reflexivity.
Qed.
Lemma lin_len : List.length (linspace a b N_curve_plot) = 200%nat.
Proof. rewrite lin_eq, app_length, map_length, seq_length. reflexivity. Qed.
Lemma lin_in x : In x (linspace a b N_curve_plot) -> isfin x = true /\ B2R a <= B2R x <= B2R b.
Proof.
  rewrite lin_eq. intros I. apply in_app_or in I as [I|[<-|[]]]; [|split; [apply B|lra]].
  apply in_map_iff in I as (k & <- & I). apply in_seq in I. destruct (at_ok k ltac:(lia)) as (F & _ & H). auto.
Qed.
Lemma lin_mono i j : (i <= j < 200)%nat -> fleb (nth i (linspace a b N_curve_plot) fzero) (nth j (linspace a b N_curve_plot) fzero) = true.
Proof.
  intros [I J]. rewrite !lin_nth by lia. destruct (Nat.ltb_spec i 199) as [L|L], (Nat.ltb_spec j 199) as [M|M]; [| |lia|apply fleb_refl, nan_fin, B].
  - destruct (at_ok i ltac:(lia)) as (F & V & _), (at_ok j ltac:(lia)) as (F' & V' & _). apply fleb_spec. split; [now apply nan_fin|]. split; [now apply nan_fin|].
    rewrite !key_fin, V, V' by assumption. apply crnd_mono. apply Rplus_le_compat_r, crnd_mono, Rmult_le_compat_r; [destruct step_ok as (_ & ? & _); lra|now apply le_INR].
  - destruct (at_ok i ltac:(lia)) as (F & V & W). destruct B as [BF _]. apply fleb_spec. split; [now apply nan_fin|]. split; [now apply nan_fin|]. rewrite !key_fin by assumption. lra.
Qed.
Lemma lin_first : feqb (nth 0 (linspace a b N_curve_plot) fzero) a = true.
Proof.
  rewrite lin_nth by lia. change (0 <? 199)%nat with true. cbv iota. destruct (at_ok 0 ltac:(lia)) as (F & V & _). destruct A as [AF _]. apply feqb_spec. split; [now apply nan_fin|]. split; [now apply nan_fin|].
  rewrite !key_fin, V by assumption. change (INR 0) with 0. rewrite Rmult_0_l, crnd_0, Rplus_0_l. apply crnd_B2R.
Qed.
Lemma lin_last : nth 199 (linspace a b N_curve_plot) fzero = b.
Proof. now rewrite lin_nth by lia. Qed.
End Lin.

(** ** small facts *)
Lemma err2 r : Rabs r <= bpow radix2 50 -> Rabs (crnd r - r) <= 2.
Proof.
  assert (P : forall r, 0 <= r <= bpow radix2 50 -> Rabs (crnd r - r) <= 2).
  { clear r. intros r [R0 R1]. destruct (Rle_dec 1 r) as [L|L].
    - destruct (near_rnd r) as (_ & X & N1 & N2).
      { split; [apply Rle_trans with (2 := L); change 1 with (bpow radix2 0); apply bpow_le; lia|apply Rle_trans with (1 := R1); apply bpow_le; lia]. }
      cbn [pow] in N1, N2. rewrite Rmult_1_r in N1, N2. assert (E : q52 = 1 + bpow radix2 (-52)) by reflexivity. rewrite E in N1, N2.
      assert (U : r * bpow radix2 (-52) <= / 4). { apply Rle_trans with (bpow radix2 50 * bpow radix2 (-52)); [apply Rmult_le_compat_r; [apply bpow_ge_0|exact R1]|]. rewrite <- bpow_plus. simpl. lra. }
      assert (W : 0 < bpow radix2 (-52) <= / 4) by (split; [apply bpow_gt_0|change (/ 4) with (bpow radix2 (-2)); apply bpow_le; lia]).
      assert (C0 : 0 <= crnd r) by (apply crnd_ge0; lra).
      assert (C1 : crnd r * bpow radix2 (-52) <= / 2). { apply Rle_trans with ((r + / 4) * bpow radix2 (-52)); [apply Rmult_le_compat_r; lra|]. rewrite Rmult_plus_distr_r. nra. }
      apply Rabs_le. lra.
    - assert (C := crnd_ge0 r R0). assert (C1 : crnd r <= 1) by (change 1 with (bpow radix2 0); rewrite <- (crnd_bpow 0) by lia; apply crnd_mono; change (bpow radix2 0) with 1; lra). apply Rabs_le. lra. }
  intros H. apply Rabs_le_inv in H. destruct (Rle_dec 0 r) as [L|L]; [apply P; lra|]. specialize (P (- r) ltac:(lra)). rewrite crnd_opp in P. apply Rabs_le_inv in P. apply Rabs_le. lra.
Qed.
Definition mid40 (x : f64) : Prop := isfin x = true /\ Rabs (B2R x) <= bpow radix2 40.
Lemma two40 : 1000 <= bpow radix2 40 /\ bpow radix2 50 = 1024 * bpow radix2 40 /\ bpow radix2 50 <= bpow radix2 60.
Proof.
  split; [apply Rle_trans with (bpow radix2 10); [simpl; lra|apply bpow_le; lia]|]. split; [change 50%Z with (10 + 40)%Z; rewrite bpow_plus; f_equal; simpl; lra|apply bpow_le; lia].
Qed.
Lemma below x : mid40 x -> mid60 (fsub x (fofZ 10)) /\ B2R (fsub x (fofZ 10)) = crnd (B2R x - 10) /\ B2R x - 12 <= B2R (fsub x (fofZ 10)) <= B2R x - 8.
Proof.
  intros [F B]. destruct (fofZ_val 10 ltac:(lia)) as [F1 V1]. destruct (fsub_key _ _ F F1) as [N K]. rewrite V1 in K. apply Rabs_le_inv in B. destruct two40 as (T & E & G).
  destruct (val_of 50 _ _ ltac:(lia) N K) as (FX & VX & WX); [apply Rabs_le; lra|]. assert (ER := err2 (B2R x - 10) ltac:(apply Rabs_le; lra)). apply Rabs_le_inv in ER.
  split; [split; [exact FX|lra]|]. split; [exact VX|]. rewrite VX. lra.
Qed.
Lemma above x : mid40 x -> mid60 (fadd x (fofZ 10)) /\ B2R x + 8 <= B2R (fadd x (fofZ 10)) <= B2R x + 12.
Proof.
  intros [F B]. destruct (fofZ_val 10 ltac:(lia)) as [F1 V1]. destruct (fadd_key _ _ F F1) as [N K]. rewrite V1 in K. apply Rabs_le_inv in B. destruct two40 as (T & E & G).
  destruct (val_of 50 _ _ ltac:(lia) N K) as (FX & VX & WX); [apply Rabs_le; lra|]. assert (ER := err2 (B2R x + 10) ltac:(apply Rabs_le; lra)). apply Rabs_le_inv in ER.
  split; [split; [exact FX|lra]|]. rewrite VX. lra.
Qed.
Lemma flt_fin x y : isfin x = true -> isfin y = true -> B2R x < B2R y -> fltb x y = true.
Proof. intros F F' L. apply fltb_spec. split; [now apply nan_fin|]. split; [now apply nan_fin|]. now rewrite !key_fin. Qed.
Lemma feq_fin x y : isfin y = true -> feqb x y = true -> isfin x = true /\ B2R x = B2R y.
Proof.
  intros F E. apply feqb_spec in E as (N & _ & E). rewrite (key_fin y) in E by exact F.
  assert (FX : isfin x = true) by (apply fin_key; auto; rewrite E; apply fin_bound). split; [exact FX|]. now rewrite key_fin in E.
Qed.
Lemma collect_ok {A B} (f : A -> res B) (h : A -> B) l : (forall x, In x l -> f x = Ok (h x)) -> collect (map f l) = Ok (map h l).
Proof. induction l as [|x l IH]; intros H; [reflexivity|]. cbn [map collect]. rewrite (H x (or_introl eq_refl)). cbn [bind]. rewrite IH by (intros y I; apply H; now right). reflexivity. Qed.

Section Thermistor.
Variables nplog pow3 : f64 -> f64.
Variable data : list reading.
Variable values : list f64.
Hypothesis NE : data <> [].
Hypothesis VL : List.length values = 28%nat.
Lemma plot_ok k : (1 <= k <= 6)%nat -> Forall (fun x => mid40 (col k x)) data ->
  exists mn mx, mid40 mn /\ mid40 mx /\ In mn (map (col k) data) /\ In mx (map (col k) data) /\ (forall x, In x data -> fleb mn (col k x) = true /\ fleb (col k x) mx = true) /\
  let xs := linspace (fsub mn (fofZ 10)) (fadd mx (fofZ 10)) N_curve_plot in
  th_plot nplog pow3 data values k = Ok (mkPlot (prefix2name "Thermistor #" k) (prefix2name "R" k) (map (fun x => (col k x, col 0 x)) data) (map (fun x => (x, th_curve nplog pow3 x (own_args values k))) xs)).
Proof.
  intros K F. assert (NR : map (col k) data <> []) by (destruct data; [congruence|discriminate]).
  assert (FN : Forall (fun x => isnan x = false) (map (col k) data)) by (apply Forall_forall; intros y I; apply in_map_iff in I as (x & <- & I); rewrite Forall_forall in F; apply nan_fin, F, I).
  assert (M : forall y, In y (map (col k) data) -> mid40 y) by (intros y I; apply in_map_iff in I as (x & <- & I); rewrite Forall_forall in F; now apply F).
  destruct (np_min_spec _ NR FN) as (mn & E1 & I1 & L1). destruct (np_max_spec _ NR FN) as (mx & E2 & I2 & L2). exists mn, mx. split; [auto|]. split; [auto|]. split; [auto|]. split; [auto|]. split.
  - intros x I. rewrite Forall_forall in L1, L2. split; [apply L1|apply L2]; now apply in_map.
  - cbv zeta. unfold th_plot. cbv zeta. rewrite E1, E2. cbn [bind]. rewrite C74_args by assumption. cbn [bind]. reflexivity.
Qed.
Lemma range_ok mn mx k x : mid40 mn -> mid40 mx -> (forall x, In x data -> fleb mn (col k x) = true /\ fleb (col k x) mx = true) -> In x data -> mid40 (col k x) ->
  mid60 (fsub mn (fofZ 10)) /\ mid60 (fadd mx (fofZ 10)) /\ 1 <= B2R (fadd mx (fofZ 10)) - B2R (fsub mn (fofZ 10)) /\ B2R (fsub mn (fofZ 10)) < B2R (col k x) < B2R (fadd mx (fofZ 10)).
Proof.
  intros M1 M2 L I MX. destruct (L x I) as [L1 L2]. apply fle_B2R in L1; [|apply M1|apply MX]. apply fle_B2R in L2; [|apply MX|apply M2].
  destruct (below mn M1) as (A & _ & A1). destruct (above mx M2) as (B & B1). split; auto. split; auto. lra.
Qed.
End Thermistor.

(** *** C116 *)
(** The thermistor example's report: one message, and six plots, each with its thermistor's
    readings and the curve of its own parameters, from left of all readings to right of them *)
Theorem C116_thermistor : forall nplog pow3 g pretty dec data values counter SSE,
  data <> [] -> (forall x k, In x data -> (1 <= k <= 6)%nat -> isfin (col k x) = true /\ Rabs (B2R (col k x)) <= bpow radix2 40) -> List.length values = 28%nat ->
  exists plots, th_report nplog pow3 g pretty dec data values counter SSE =
    ([pretty values (("SSE=" ++ g SSE) ++ ", with")%string], Ok (mkPage ("Temp vs Voltage" ++ ", " ++ ("SSE=" ++ g SSE) ++ ", " ++ "k=" ++ dec counter)%string plots)) /\
  List.length plots = 6%nat /\
  forall k, (1 <= k <= 6)%nat -> exists p, nth_error plots (k - 1) = Some p /\
    pl_title p = nth (k - 1) ["Thermistor #1"; "Thermistor #2"; "Thermistor #3"; "Thermistor #4"; "Thermistor #5"; "Thermistor #6"]%string ""%string /\
    pl_xlabel p = nth (k - 1) ["R1"; "R2"; "R3"; "R4"; "R5"; "R6"]%string ""%string /\
    pl_points p = map (fun x => (nth k (cols x) fzero, nth 0 (cols x) fzero)) data /\
    List.length (pl_curve p) = 200%nat /\
    (forall x y, In (x, y) (pl_curve p) -> y = th_curve nplog pow3 x (firstn 4 values ++ firstn 4 (skipn (4 * k) values))) /\
    (forall i j d, (i <= j < 200)%nat -> fleb (fst (nth i (pl_curve p) d)) (fst (nth j (pl_curve p) d)) = true) /\
    (forall x d, In x data -> fltb (fst (nth 0 (pl_curve p) d)) (col k x) = true /\ fltb (col k x) (fst (nth 199 (pl_curve p) d)) = true).
Proof.
  intros nplog pow3 g pretty dec data values counter SSE NE M VL.
  assert (MF : forall k, (1 <= k <= 6)%nat -> Forall (fun x => mid40 (col k x)) data) by (intros k K; apply Forall_forall; intros x I; apply M; auto).
  assert (P : forall k, exists p, (1 <= k <= 6)%nat -> th_plot nplog pow3 data values k = Ok p).
  { intros k. destruct (le_lt_dec 1 k) as [L|L]; [|exists (mkPlot "" "" [] []); lia]. destruct (le_lt_dec k 6) as [L2|L2]; [|exists (mkPlot "" "" [] []); lia].
    destruct (plot_ok nplog pow3 data values NE VL k (conj L L2) (MF k (conj L L2))) as (mn & mx & _ & _ & _ & _ & _ & E). cbv zeta in E. eexists. intros _. exact E. }
  assert (H : exists h, forall k, (1 <= k <= 6)%nat -> th_plot nplog pow3 data values k = Ok (h k)).
  { destruct (P 1%nat) as [p1 H1], (P 2%nat) as [p2 H2], (P 3%nat) as [p3 H3], (P 4%nat) as [p4 H4], (P 5%nat) as [p5 H5], (P 6%nat) as [p6 H6].
    exists (fun k => match k with 1%nat => p1 | 2%nat => p2 | 3%nat => p3 | 4%nat => p4 | 5%nat => p5 | _ => p6 end). intros k K. do 7 (destruct k as [|k]; [first [lia|auto with arith]|]); lia. }
  destruct H as [h H]. exists (map h (seq 1 6)). split.
  { unfold th_report. rewrite (collect_ok _ h) by (intros k I; apply in_seq in I; apply H; lia). reflexivity. }
  split; [reflexivity|]. intros k K. exists (h k). split; [do 7 (destruct k as [|k]; [first [lia|reflexivity]|]); lia|].
  destruct (plot_ok nplog pow3 data values NE VL k K (MF k K)) as (mn & mx & M1 & M2 & _ & _ & L & E). cbv zeta in E. rewrite (H k K) in E.
  assert (HE : h k = mkPlot (prefix2name "Thermistor #" k) (prefix2name "R" k) (map (fun x => (col k x, col 0 x)) data) (map (fun x => (x, th_curve nplog pow3 x (own_args values k))) (linspace (fsub mn (fofZ 10)) (fadd mx (fofZ 10)) N_curve_plot))) by congruence.
  rewrite HE. cbn [pl_title pl_xlabel pl_points pl_curve]. clear E HE H P.
  assert (I0 : exists x0, In x0 data) by (destruct data as [|x0 ?]; [congruence|exists x0; now left]). destruct I0 as (x0 & I0).
  assert (MX : forall x, In x data -> mid40 (col k x)) by (intros x I; apply M; auto).
  destruct (range_ok data mn mx k x0 M1 M2 L I0 (MX _ I0)) as (A & B & D & _).
  set (xs := linspace (fsub mn (fofZ 10)) (fadd mx (fofZ 10)) N_curve_plot). set (f := fun x => (x, th_curve nplog pow3 x (own_args values k))).
  assert (LX : List.length xs = 200%nat) by now apply lin_len.
  assert (FN : forall i d, (i < 200)%nat -> fst (nth i (map f xs) d) = nth i xs fzero).
  { intros i d I. rewrite (nth_indep _ d (f fzero)) by (rewrite map_length; lia). rewrite map_nth. reflexivity. }
  split; [do 7 (destruct k as [|k]; [first [lia|reflexivity]|]); lia|]. split; [do 7 (destruct k as [|k]; [first [lia|reflexivity]|]); lia|]. split; [reflexivity|].
  split; [now rewrite map_length|]. split.
  { intros x y I. apply in_map_iff in I as (z & E & _). unfold f in E. assert (x = z) as -> by congruence. assert (Y : y = th_curve nplog pow3 z (own_args values k)) by congruence. exact Y. }
  split.
  - intros i j d I. rewrite !FN by lia. now apply lin_mono.
  - intros x d I. destruct (range_ok data mn mx k x M1 M2 L I (MX _ I)) as (_ & _ & _ & R1 & R2). rewrite !FN by lia. split.
    + destruct (feq_fin _ _ (proj1 A) (lin_first _ _ A B D)) as [F0 V0]. apply flt_fin; [exact F0|apply MX, I|]. fold xs in V0. rewrite V0. exact R1.
    + unfold xs. rewrite lin_last by assumption. apply flt_fin; [apply MX, I|apply B|exact R2].
Qed.
(** From eleven Ohms on, the curve drawn is a number everywhere and never rises *)
Theorem C116_falls : forall nplog pow3 g pretty dec data values counter SSE, log_ok nplog -> pow3_ok pow3 ->
  data <> [] -> (forall x k, In x data -> (1 <= k <= 6)%nat -> isfin (col k x) = true /\ 11 <= B2R (col k x) <= bpow radix2 40) ->
  List.length values = 28%nat -> Forall param values ->
  exists pg, snd (th_report nplog pow3 g pretty dec data values counter SSE) = Ok pg /\ Forall (fun p => List.length (pl_curve p) = 200%nat /\
    forall i j d, (i <= j < 200)%nat -> isfin (snd (nth i (pl_curve p) d)) = true /\ fleb (snd (nth j (pl_curve p) d)) (snd (nth i (pl_curve p) d)) = true) (pg_plots pg).
Proof.
  intros nplog pow3 g pretty dec data values counter SSE LG PW NE M VL VF.
  destruct (C116_thermistor nplog pow3 g pretty dec data values counter SSE NE) as (plots & E & LP & P); [|exact VL|].
  { intros x k I K. destruct (M x k I K) as [F B]. split; [exact F|]. apply Rabs_le. pose proof (bpow_ge_0 radix2 40). lra. }
  eexists. rewrite E. split; [reflexivity|]. cbn [pg_plots]. apply Forall_forall. intros p I. apply In_nth_error in I as (n & N).
  assert (NL : (n < 6)%nat) by (rewrite <- LP; apply nth_error_Some; congruence).
  destruct (P (S n) ltac:(lia)) as (p' & N' & _ & _ & _ & LC & CV & MO & _). rewrite Nat.sub_succ, Nat.sub_0_r, N in N'. assert (PE : p' = p) by congruence. subst p'. split; [exact LC|].
  intros i j d IJ.
  assert (MF : forall k, (1 <= k <= 6)%nat -> Forall (fun x => mid40 (col k x)) data).
  { intros k K; apply Forall_forall; intros x I. destruct (M x k I K) as [F B]. split; [exact F|]. apply Rabs_le. pose proof (bpow_ge_0 radix2 40). lra. }
  destruct (plot_ok nplog pow3 data values NE VL (S n) ltac:(lia) (MF (S n) ltac:(lia))) as (mn & mx & M1 & M2 & I1 & I2 & L & EP). cbv zeta in EP.
  assert (PE : p = mkPlot (prefix2name "Thermistor #" (S n)) (prefix2name "R" (S n)) (map (fun x => (col (S n) x, col 0 x)) data) (map (fun x => (x, th_curve nplog pow3 x (own_args values (S n)))) (linspace (fsub mn (fofZ 10)) (fadd mx (fofZ 10)) N_curve_plot))).
  { unfold th_report in E. assert (EC : exists l, collect (map (th_plot nplog pow3 data values) (seq 1 6)) = Ok l /\ l = plots).
    { destruct (collect (map (th_plot nplog pow3 data values) (seq 1 6))) as [l|]; cbn [bind] in E; [|congruence]. exists l. split; [reflexivity|congruence]. }
    destruct EC as (l & EC & ->). clear - EC N EP NL. assert (G : forall ks l, collect (map (th_plot nplog pow3 data values) ks) = Ok l -> forall n p k, nth_error l n = Some p -> nth_error ks n = Some k -> th_plot nplog pow3 data values k = Ok p).
    { clear. induction ks as [|k0 ks IH]; intros l E n p k H K; [destruct n; discriminate|]. cbn [map collect] in E. destruct (th_plot nplog pow3 data values k0) as [p0|] eqn:E0; cbn [bind] in E; [|congruence].
      destruct (collect (map (th_plot nplog pow3 data values) ks)) as [r|] eqn:Er; cbn [bind] in E; [|congruence]. assert (LE : l = p0 :: r) by congruence. subst l.
      destruct n as [|n]; cbn [nth_error] in H, K; [congruence|]. exact (IH r eq_refl n p k H K). }
    specialize (G _ _ EC n p (S n) N). rewrite G in EP; [congruence|]. do 6 (destruct n as [|n]; [reflexivity|]). lia. }
  rewrite PE in *. cbn [pl_curve] in *. clear PE EP E P CV.
  assert (I0 : exists x0, In x0 data) by (destruct data as [|x0 ?]; [congruence|exists x0; now left]). destruct I0 as (x0 & I0).
  assert (MX : forall x, In x data -> mid40 (col (S n) x)) by (intros x I; specialize (MF (S n) ltac:(lia)); rewrite Forall_forall in MF; auto).
  destruct (range_ok data mn mx (S n) x0 M1 M2 L I0 (MX _ I0)) as (A & B & D & _).
  set (xs := linspace (fsub mn (fofZ 10)) (fadd mx (fofZ 10)) N_curve_plot) in *. set (f := fun x => (x, th_curve nplog pow3 x (own_args values (S n)))) in *.
  assert (LX : List.length xs = 200%nat) by now apply lin_len.
  assert (FN : forall i, (i < 200)%nat -> snd (nth i (map f xs) d) = th_curve nplog pow3 (nth i xs fzero) (own_args values (S n))).
  { intros q I. rewrite (nth_indep _ d (f fzero)) by (rewrite map_length; lia). rewrite map_nth. reflexivity. }
  assert (RS : forall q, (q < 200)%nat -> resistance (nth q xs fzero)).
  { intros q Q. assert (I : In (nth q xs fzero) xs) by (apply nth_In; lia). destruct (lin_in _ _ A B D _ I) as (F & W & _). split; [exact F|]. apply Rle_trans with (2 := W).
    destruct (below mn M1) as (_ & V & _). rewrite V. change 1 with (bpow radix2 0). rewrite <- (crnd_bpow 0) by lia. apply crnd_mono. change (bpow radix2 0) with 1.
    apply in_map_iff in I1 as (x1 & <- & I1). destruct (M x1 (S n) I1 ltac:(lia)) as [_ W1]. lra. }
  destruct (own_args_ok values (S n) VL VF ltac:(lia)) as [OL OF]. rewrite !FN by lia.
  destruct (C108_curve nplog pow3 (own_args values (S n)) (nth i xs fzero) (nth j xs fzero) LG PW OL OF (RS i ltac:(lia)) (RS j ltac:(lia)) (lin_mono _ _ A B D i j IJ)) as (X & Y & _). split; assumption.
Qed.
(** "a bit of extrapolation" goes below zero Ohms if a reading is below ten: there the curve
    is no number *)
Theorem C116_small_refuted : forall nplog pow3 g pretty dec data values counter SSE x k, (forall x, fltb x fzero = true -> isnan (nplog x) = true) ->
  (forall x k, In x data -> (1 <= k <= 6)%nat -> isfin (col k x) = true /\ Rabs (B2R (col k x)) <= bpow radix2 40) -> List.length values = 28%nat ->
  In x data -> (1 <= k <= 6)%nat -> B2R (col k x) < 10 ->
  exists pg p, snd (th_report nplog pow3 g pretty dec data values counter SSE) = Ok pg /\ nth_error (pg_plots pg) (k - 1) = Some p /\
    forall d, isnan (snd (nth 0 (pl_curve p) d)) = true.
Proof.
  intros nplog pow3 g pretty dec data values counter SSE x k LN M VL I K SM.
  assert (NE : data <> []) by (intros ->; destruct I).
  destruct (C116_thermistor nplog pow3 g pretty dec data values counter SSE NE M VL) as (plots & E & LP & P). destruct (P k K) as (p & N & _ & _ & _ & LC & CV & _ & RG).
  eexists. exists p. rewrite E. split; [reflexivity|]. split; [exact N|]. intros d.
  assert (MF : Forall (fun x => mid40 (col k x)) data) by (apply Forall_forall; intros y J; apply M; auto).
  destruct (plot_ok nplog pow3 data values NE VL k K MF) as (mn & mx & M1 & M2 & I1 & I2 & L & EP). cbv zeta in EP.
  assert (PE : th_plot nplog pow3 data values k = Ok p).
  { unfold th_report in E. destruct (collect (map (th_plot nplog pow3 data values) (seq 1 6))) as [l|] eqn:EC; cbn [bind] in E; [|congruence]. assert (LE : l = plots) by congruence. subst l. clear - EC N K.
    cbn [seq map collect] in EC. repeat match type of EC with context[th_plot ?a ?b ?c ?d ?e] => let X := fresh "X" in destruct (th_plot a b c d e) eqn:X; cbn [bind] in EC; [|congruence] end.
    assert (W : plots = [a; a0; a1; a2; a3; a4]) by congruence. subst plots. do 7 (destruct k as [|k]; [first [lia|cbn in N; congruence]|]). lia. }
  rewrite EP in PE. assert (PE' := f_equal (fun r => match r with Ok q => pl_curve q | Raise _ => [] end) PE). cbv beta iota in PE'. cbn [pl_curve] in PE'. clear PE EP. rewrite <- PE'.
  destruct (range_ok data mn mx k x M1 M2 L I ltac:(rewrite Forall_forall in MF; auto)) as (A & B & D & _).
  set (xs := linspace (fsub mn (fofZ 10)) (fadd mx (fofZ 10)) N_curve_plot) in *. set (f := fun x => (x, th_curve nplog pow3 x (own_args values k))) in *.
  rewrite (nth_indep _ d (f fzero)) by (rewrite map_length; unfold xs; rewrite lin_len by assumption; lia). rewrite map_nth. unfold f. cbn [snd].
  destruct (feq_fin _ _ (proj1 A) (lin_first _ _ A B D)) as [F0 V0]. fold xs in F0, V0.
  assert (NG : fltb (nth 0 xs fzero) fzero = true).
  { apply flt_fin; [exact F0|reflexivity|]. rewrite V0. change (B2R fzero) with 0. destruct (below mn M1) as (_ & V & _). rewrite V. destruct (L x I) as [L1 _]. apply fle_B2R in L1; [|apply M1|apply M; auto].
    assert (C : 0 < crnd (B2R (fofZ 10) - B2R mn)). { destruct (fofZ_val 10 ltac:(lia)) as [FT VT]. apply FanProofs.crnd_sub_pos; [exact FT|apply M1|lra]. }
    destruct (fofZ_val 10 ltac:(lia)) as [_ VT]. rewrite VT in C. replace (B2R mn - 10) with (- (10 - B2R mn)) by ring. rewrite crnd_opp. lra. }
  unfold th_curve. cbv zeta. apply nan_sub. left. apply nan_div. right. apply nan_add. left. apply nan_add. left. apply nan_add. right. apply nan_mul. right. now apply LN.
Qed.
(** the message comes first whatever happens; without readings the report then fails *)
Theorem C116_first : forall nplog npexp pow3 g f2 pretty dec values counter SSE,
  (forall data, fst (th_report nplog pow3 g pretty dec data values counter SSE) = [pretty values (("SSE=" ++ g SSE) ++ ", with")%string]) /\
  (forall data, fst (voc_report npexp g f2 pretty dec data values counter SSE) = [pretty values (("SSE=" ++ g SSE) ++ ", with")%string]) /\
  snd (th_report nplog pow3 g pretty dec [] values counter SSE) = Raise ValueError /\
  (values <> [] -> snd (voc_report npexp g f2 pretty dec [] values counter SSE) = Raise ValueError).
Proof.
  intros. split; [reflexivity|]. split; [reflexivity|]. split; [reflexivity|]. intros NE. unfold voc_report. cbv zeta. cbn [snd map]. destruct (rev values) eqn:E; [|reflexivity].
  exfalso. apply NE. apply (f_equal (@rev f64)) in E. now rewrite rev_involutive in E.
Qed.

(** ** The battery example *)
Lemma voc_total npexp values t : List.length values = 10%nat -> exists v, voc_curve npexp t values = Ok v.
Proof. intros L. destruct values as [|a0 [|b0 [|c0 [|a1 [|b1 [|c1 [|a2 [|b2 [|c2 [|vo [|? ?]]]]]]]]]]]; try discriminate L. eexists. reflexivity. Qed.
Definition voc_fn (npexp : f64 -> f64) (values : list f64) (t : f64) : f64 := match voc_curve npexp t values with Ok v => v | Raise _ => fzero end.
Lemma voc_fn_ok npexp values t : List.length values = 10%nat -> voc_curve npexp t values = Ok (voc_fn npexp values t).
Proof. intros L. unfold voc_fn. destruct (voc_total npexp values t L) as [v ->]. reflexivity. Qed.
Lemma rev_last (values : list f64) : List.length values = 10%nat -> exists l, rev values = nth 9 values fzero :: l.
Proof. intros L. destruct values as [|a0 [|b0 [|c0 [|a1 [|b1 [|c1 [|a2 [|b2 [|c2 [|vo [|? ?]]]]]]]]]]]; try discriminate L. eexists. cbn. reflexivity. Qed.
Lemma voc_run npexp g f2 pretty dec data values counter SSE : List.length values = 10%nat ->
  voc_report npexp g f2 pretty dec data values counter SSE =
  ([pretty values (("SSE=" ++ g SSE) ++ ", with")%string],
   bind (np_min (map fst data)) (fun mn => bind (np_max (map fst data)) (fun mx =>
   match skipn 2 data with [] => Raise ValueError | _ =>
     Ok (mkVpage ("Voltage vs Time (sec)" ++ ", " ++ ("SSE=" ++ g SSE) ++ ", " ++ "k=" ++ dec counter)%string (nth 9 values fzero) ("Estimated VOC: " ++ f2 (nth 9 values fzero) ++ " V")%string data
       (map (fun t => (t, voc_fn npexp values t)) (linspace mn (fmul (fofZ 3) mx) N_curve_plot))
       (map (fun tv => (fst tv, fsub (voc_fn npexp values (fst tv)) (snd tv))) data)) end))).
Proof.
  intros L. unfold voc_report. cbv zeta. destruct (rev_last values L) as (l & ->). f_equal. destruct (np_min (map fst data)) as [mn|]; [|reflexivity]. cbn [bind]. destruct (np_max (map fst data)) as [mx|]; [|reflexivity]. cbn [bind].
  unfold voc_points. rewrite (collect_ok _ (fun t => (t, voc_fn npexp values t))) by (intros t _; now rewrite voc_fn_ok). cbn [bind].
  rewrite (collect_ok _ (fun tv => fsub (voc_fn npexp values (fst tv)) (snd tv))) by (intros t _; now rewrite voc_fn_ok). cbn [bind].
  destruct data as [|x [|y [|z data]]]; try reflexivity. cbn [map skipn]. f_equal. f_equal. cbn [map combine]. f_equal. f_equal. f_equal. clear. induction data as [|x data IH]; cbn [map combine]; congruence.
Qed.
(** The battery example's report: with three readings or more, the observations, their residuals
    in the same order, and the curve from the first observation's time to three times the last;
    the voltage shown is that of the parameter voc *)
Theorem C116_voc : forall npexp g f2 pretty dec data values counter SSE, List.length values = 10%nat -> (3 <= List.length data)%nat ->
  (forall tv, In tv data -> isfin (fst tv) = true /\ 0 <= B2R (fst tv) <= bpow radix2 50) -> (exists tv, In tv data /\ 1 <= B2R (fst tv)) ->
  exists p v, snd (voc_report npexp g f2 pretty dec data values counter SSE) = Ok p /\
  v_title p = ("Voltage vs Time (sec)" ++ ", " ++ ("SSE=" ++ g SSE) ++ ", " ++ "k=" ++ dec counter)%string /\
  In ("voc"%string, v) (combine voc_names values) /\ v_zero p = v /\ v_box p = ("Estimated VOC: " ++ f2 v ++ " V")%string /\
  v_points p = data /\
  Forall2 (fun tv r => fst r = fst tv /\ exists y, voc_curve npexp (fst tv) values = Ok y /\ snd r = fsub y (snd tv)) data (v_resid p) /\
  List.length (v_curve p) = 200%nat /\
  (forall t y, In (t, y) (v_curve p) -> voc_curve npexp t values = Ok y) /\
  (forall i j d, (i <= j < 200)%nat -> fleb (fst (nth i (v_curve p) d)) (fst (nth j (v_curve p) d)) = true) /\
  (forall tv d, In tv data -> fleb (fst (nth 0 (v_curve p) d)) (fst tv) = true /\ fleb (fst tv) (fst (nth 199 (v_curve p) d)) = true) /\
  (exists tv, In tv data /\ forall d, feqb (fst (nth 0 (v_curve p) d)) (fst tv) = true) /\
  (exists tv, In tv data /\ (forall tv', In tv' data -> fleb (fst tv') (fst tv) = true) /\ forall d, fst (nth 199 (v_curve p) d) = fmul (fofZ 3) (fst tv)).
Proof.
  intros npexp g f2 pretty dec data values counter SSE VL DL M (t1 & I1 & G1).
  assert (NR : map fst data <> []) by (destruct data; [cbn in DL; lia|discriminate]).
  assert (FN : Forall (fun x => isnan x = false) (map fst data)) by (apply Forall_forall; intros y I; apply in_map_iff in I as (x & <- & I); apply nan_fin, M, I).
  destruct (np_min_spec _ NR FN) as (mn & E1 & IN1 & L1). destruct (np_max_spec _ NR FN) as (mx & E2 & IN2 & L2). rewrite Forall_forall in L1, L2.
  rewrite (voc_run npexp g f2 pretty dec data values counter SSE VL). cbn [snd]. rewrite E1, E2. cbn [bind].
  assert (SK : exists x l, skipn 2 data = x :: l) by (destruct data as [|x [|y [|z l]]]; cbn in DL; try lia; now exists z, l). destruct SK as (sx & sl & ->).
  apply in_map_iff in IN1 as (tmn & <- & IMN). apply in_map_iff in IN2 as (tmx & <- & IMX).
  destruct (M _ IMN) as [F1 B1]. destruct (M _ IMX) as [F2 B2].
  assert (X1 : 1 <= B2R (fst tmx)). { apply Rle_trans with (1 := G1). apply fle_B2R; [apply M, I1|exact F2|apply L2, in_map, I1]. }
  assert (X2 : B2R (fst tmn) <= B2R (fst tmx)) by (apply fle_B2R; [exact F1|exact F2|apply L1, in_map, IMX]).
  destruct (fofZ_val 3 ltac:(lia)) as [F3 V3]. destruct (fmul_key (fofZ 3) (fst tmx) F3 F2) as [N K]. rewrite V3 in K.
  assert (S50 : bpow radix2 60 = 1024 * bpow radix2 50) by (change 60%Z with (10 + 50)%Z; rewrite bpow_plus; f_equal; simpl; lra). assert (S0 : 0 < bpow radix2 50) by apply bpow_gt_0.
  destruct (val_of 60 _ _ ltac:(lia) N K) as (FB & VB & WB); [apply Rabs_le; lra|].
  assert (A : mid60 (fst tmn)) by (split; [exact F1|apply Rabs_le; lra]). assert (B : mid60 (fmul (fofZ 3) (fst tmx))) by (split; assumption).
  assert (TB : 2 * B2R (fst tmx) <= B2R (fmul (fofZ 3) (fst tmx))).
  { rewrite VB. destruct (near_rnd (3 * B2R (fst tmx))) as (_ & _ & _ & N2).
    { split; [apply Rle_trans with (bpow radix2 0); [apply bpow_le; lia|change (bpow radix2 0) with 1; lra]|apply Rle_trans with (bpow radix2 60); [lra|apply bpow_le; lia]]. }
    cbn [pow] in N2. rewrite Rmult_1_r in N2. assert (Q1 : q52 <= 3 / 2). { unfold q52. assert (Q : bpow radix2 (-52) <= bpow radix2 (-1)) by (apply bpow_le; lia). replace (bpow radix2 (-1)) with (/ 2) in Q by (simpl; lra). lra. }
    assert (C0 : 0 <= crnd (3 * B2R (fst tmx))) by (apply crnd_ge0; lra). assert (crnd (3 * B2R (fst tmx)) * q52 <= crnd (3 * B2R (fst tmx)) * (3 / 2)) by (apply Rmult_le_compat_l; lra). lra. }
  assert (D : 1 <= B2R (fmul (fofZ 3) (fst tmx)) - B2R (fst tmn)) by lra.
  set (xs := linspace (fst tmn) (fmul (fofZ 3) (fst tmx)) N_curve_plot). set (f := fun t => (t, voc_fn npexp values t)).
  assert (LX : List.length xs = 200%nat) by now apply lin_len.
  assert (FX : forall i d, (i < 200)%nat -> fst (nth i (map f xs) d) = nth i xs fzero).
  { intros i d I. rewrite (nth_indep _ d (f fzero)) by (rewrite map_length; lia). rewrite map_nth. reflexivity. }
  eexists. exists (nth 9 values fzero). split; [reflexivity|]. cbn [v_title v_zero v_box v_points v_curve v_resid]. split; [reflexivity|]. split.
  { destruct values as [|a0 [|b0 [|c0 [|a1 [|b1 [|c1 [|a2 [|b2 [|c2 [|vo [|? ?]]]]]]]]]]]; try discriminate VL. do 9 right. left. reflexivity. }
  split; [reflexivity|]. split; [reflexivity|]. split; [reflexivity|]. split.
  { clear - VL. induction data as [|tv data IH]; cbn [map]; constructor; [|exact IH]. cbn [fst snd]. split; [reflexivity|]. eexists. split; [apply (voc_fn_ok npexp values _ VL)|reflexivity]. }
  split; [now rewrite map_length|]. split.
  { intros t y I. apply in_map_iff in I as (z & E & _). unfold f in E. assert (ZT : z = t) by congruence. assert (ZY : y = voc_fn npexp values z) by congruence. rewrite ZY, <- ZT. now apply voc_fn_ok. }
  split; [intros i j d IJ; rewrite !FX by lia; now apply lin_mono|].
  pose proof (lin_first _ _ A B D) as FI. fold xs in FI. destruct (feq_fin _ _ F1 FI) as [F0 V0].
  split; [|split].
  - intros tv d I. destruct (M tv I) as [FT _]. rewrite !FX by lia. assert (U1 := L1 _ (in_map fst _ _ I)). assert (U2 := L2 _ (in_map fst _ _ I)). apply fle_B2R in U1; auto. apply fle_B2R in U2; auto. split.
    + apply fleb_spec. split; [now apply nan_fin|]. split; [now apply nan_fin|]. rewrite !key_fin by assumption. lra.
    + unfold xs. rewrite lin_last by assumption. apply fleb_spec. split; [now apply nan_fin|]. split; [now apply nan_fin|]. rewrite !key_fin by assumption. lra.
  - exists tmn. split; [exact IMN|]. intros d. rewrite FX by lia. exact FI.
  - exists tmx. split; [exact IMX|]. split; [intros tv' I; now apply L2, in_map|]. intros d. rewrite FX by lia. unfold xs. now rewrite lin_last by assumption.
Qed.
(** it never rises and stays above that voltage *)
Theorem C116_voc_falls : forall npexp g f2 pretty dec data values counter SSE p, exp_ok npexp -> voc_ok values ->
  (forall tv, In tv data -> isfin (fst tv) = true /\ 0 <= B2R (fst tv) <= bpow radix2 50) -> (exists tv, In tv data /\ 1 <= B2R (fst tv)) ->
  snd (voc_report npexp g f2 pretty dec data values counter SSE) = Ok p ->
  forall i j d, (i <= j < 200)%nat -> fleb (snd (nth j (v_curve p) d)) (snd (nth i (v_curve p) d)) = true /\ fleb (v_zero p) (snd (nth j (v_curve p) d)) = true.
Proof.
  intros npexp g f2 pretty dec data values counter SSE p EX VO M G E i j d IJ. pose proof (proj1 VO) as VL.
  assert (DL : (3 <= List.length data)%nat).
  { rewrite (voc_run npexp g f2 pretty dec data values counter SSE VL) in E. cbn [snd] in E. destruct data as [|x [|y [|z l]]]; cbn; try lia; cbn [map np_min np_max bind skipn] in E; congruence. }
  destruct (C116_voc npexp g f2 pretty dec data values counter SSE VL DL M G) as (p' & v & E' & _ & IV & VZ & _ & _ & _ & LC & CV & MO & RG & F0 & FL).
  rewrite E in E'. assert (PE : p = p') by congruence. subst p'.
  assert (VE : v = nth 9 values fzero).
  { destruct values as [|a0 [|b0 [|c0 [|a1 [|b1 [|c1 [|a2 [|b2 [|c2 [|vo [|? ?]]]]]]]]]]]; try discriminate VL. clear - IV. change voc_names with ["a1"; "a2"; "a3"; "b1"; "b2"; "b3"; "c1"; "c2"; "c3"; "voc"]%string in IV. cbn [combine In] in IV. cbn [nth].
    repeat (destruct IV as [IV|IV]; [first [congruence | exfalso; apply (f_equal fst) in IV; cbn [fst] in IV; discriminate IV]|]). contradiction. }
  assert (P : forall q, (q < 200)%nat -> In (nth q (v_curve p) d) (v_curve p)) by (intros q Q; apply nth_In; lia).
  assert (BT : forall q, (q < 200)%nat -> bd 60 (fst (nth q (v_curve p) d))).
  { intros q Q. destruct F0 as (t0 & I0 & Q0). destruct FL as (t9 & I9 & _ & Q9). specialize (Q0 d). specialize (Q9 d). destruct (M _ I0) as [T0 U0]. destruct (M _ I9) as [T9 U9].
    destruct (feq_fin _ _ T0 Q0) as [A0 A1]. assert (L0 := MO 0%nat q d ltac:(lia)). assert (L9 := MO q 199%nat d ltac:(lia)). apply fleb_spec in L0 as (N0 & NQ & L0). apply fleb_spec in L9 as (_ & N9 & L9).
    rewrite (key_fin _ A0) in L0. rewrite Q9 in L9. destruct (fofZ_val 3 ltac:(lia)) as [F3 V3]. destruct (fmul_key (fofZ 3) (fst t9) F3 T9) as [_ K]. rewrite V3 in K. rewrite K in L9.
    assert (U : crnd (3 * B2R (fst t9)) <= bpow radix2 60). { rewrite <- crnd_bpow by lia. apply crnd_mono. change 60%Z with (10 + 50)%Z. rewrite bpow_plus. replace (bpow radix2 10) with 1024 by (simpl; lra). assert (0 < bpow radix2 50) by apply bpow_gt_0. lra. }
    apply bd_of; [lia|exact NQ|lra]. }
  assert (CI := CV (fst (nth i (v_curve p) d)) (snd (nth i (v_curve p) d))). assert (CJ := CV (fst (nth j (v_curve p) d)) (snd (nth j (v_curve p) d))). rewrite <- !surjective_pairing in CI, CJ.
  specialize (CI (P i ltac:(lia))). specialize (CJ (P j ltac:(lia))).
  destruct (C108_voc_curve npexp values _ _ EX VO (BT i ltac:(lia)) (BT j ltac:(lia)) (MO i j d IJ)) as (y & y' & Y & Y' & W1 & W2).
  rewrite CI in Y. rewrite CJ in Y'. assert (YE : y = snd (nth i (v_curve p) d)) by congruence. assert (YE' : y' = snd (nth j (v_curve p) d)) by congruence. rewrite <- YE, <- YE', VZ, VE. split; assumption.
Qed.
(** With one or two readings nothing is shown: it looks for the largest residual after the
    first two, though it does not use it *)
Theorem C116_short_refuted : forall npexp g f2 pretty dec data values counter SSE, List.length values = 10%nat -> (List.length data <= 2)%nat ->
  snd (voc_report npexp g f2 pretty dec data values counter SSE) = Raise ValueError.
Proof.
  intros npexp g f2 pretty dec data values counter SSE VL DL. rewrite (voc_run npexp g f2 pretty dec data values counter SSE VL). cbn [snd].
  destruct data as [|x [|y [|z l]]]; [reflexivity|reflexivity|reflexivity|cbn in DL; lia].
Qed.

(** *** cases *)
(** two readings at each resistance, one of them with a thermistor of five Ohms *)
Definition ex_readings : list reading := map (fun T => mkReading (fofZ 3) (fofZ T :: map (fun k => fofZ (1000 * Z.of_nat k + T)) (seq 1 6))) [20; 25]%Z.
Definition ex_small : list reading := [mkReading (fofZ 3) (map fofZ [20; 1000; 5; 1000; 1000; 1000; 1000]%Z)].
Definition no_text : f64 -> string := fun _ => ""%string.
Example C116_thermistor_case : ex_readings <> [] /\ (forall x k, In x ex_readings -> (1 <= k <= 6)%nat -> isfin (col k x) = true /\ 11 <= B2R (col k x) <= bpow radix2 40) /\
  List.length mid = 28%nat /\ Forall param mid /\ log_ok nine1 /\ pow3_ok cube1 /\
  match snd (th_report nine1 cube1 no_text (fun _ s => s) (fun _ => ""%string) ex_readings mid 7 (fofZ 3)) with
  | Ok pg => forallb (fun p => Nat.eqb (List.length (pl_curve p)) 200) (pg_plots pg) && match pg_plots pg with [_; p; _; _; _; _] => feqb (fst (nth 0 (pl_curve p) (fzero, fzero))) (fofZ 2010) && feqb (fst (nth 199 (pl_curve p) (fzero, fzero))) (fofZ 2035) && fltb (fofZ 34) (snd (nth 100 (pl_curve p) (fzero, fzero))) | _ => false end
  | Raise _ => false end = true.
Proof.
  assert (T40 : IZR (2 ^ 20) <= bpow radix2 40) by (change (IZR (2 ^ 20)) with (bpow radix2 20); apply bpow_le; lia).
  split; [discriminate|]. split.
  { assert (G : forall T, (20 <= T < 100)%Z -> forall k, (1 <= k <= 6)%nat -> let x := mkReading (fofZ 3) (fofZ T :: map (fun k => fofZ (1000 * Z.of_nat k + T)) (seq 1 6)) in isfin (col k x) = true /\ 11 <= B2R (col k x) <= bpow radix2 40).
    { intros T HT k K. cbv zeta. assert (E : col k (mkReading (fofZ 3) (fofZ T :: map (fun k => fofZ (1000 * Z.of_nat k + T)) (seq 1 6))) = fofZ (1000 * Z.of_nat k + T)).
      { unfold col. destruct k as [|k]; [lia|]. cbn [cols nth]. set (f := fun k => fofZ (1000 * Z.of_nat k + T)). rewrite (nth_indep _ fzero (f 0%nat)) by (rewrite map_length, seq_length; lia). rewrite map_nth, seq_nth by lia. reflexivity. }
      rewrite E. destruct (fofZ_val (1000 * Z.of_nat k + T)) as [F V]; [lia|]. split; [exact F|]. rewrite V. split; [apply IZR_le; lia|]. apply Rle_trans with (2 := T40). apply IZR_le. lia. }
    intros x k [<-|[<-|[]]] K; apply G; lia. }
  split; [apply mid_ok|]. split; [apply mid_ok|]. split; [apply C108_formula_case|]. split; [apply cube_ok|]. vm_compute. reflexivity.
Qed.
Example C116_small_case : (forall x k, In x ex_small -> (1 <= k <= 6)%nat -> isfin (col k x) = true /\ Rabs (B2R (col k x)) <= bpow radix2 40) /\
  exists x, In x ex_small /\ B2R (col 2 x) < 10.
Proof.
  assert (T40 : IZR 1000 <= bpow radix2 40) by (apply Rle_trans with (bpow radix2 10); [change (bpow radix2 10) with (IZR 1024); apply IZR_le; lia|apply bpow_le; lia]).
  assert (G : forall z, (0 <= z <= 1000)%Z -> isfin (fofZ z) = true /\ Rabs (B2R (fofZ z)) <= bpow radix2 40).
  { intros z Z. destruct (fofZ_val z) as [F V]; [lia|]. split; [exact F|]. rewrite V, Rabs_pos_eq by (apply IZR_le; lia). apply Rle_trans with (2 := T40). apply IZR_le. lia. }
  split.
  - intros x k [<-|[]] K. unfold col. cbn [cols map]. do 7 (destruct k as [|k]; [cbn [nth]; apply G; lia|]). lia.
  - eexists. split; [left; reflexivity|]. unfold col. cbn [cols map nth]. destruct (fofZ_val 5) as [F V]; [lia|]. rewrite V. lra.
Qed.
Definition ex_volts : list (f64 * f64) := map (fun t => (fofZ t, fofZ (50 - t))) [0; 1; 2]%Z.
Definition ex_pars : list f64 := map fofZ [40; 600; 800; 600; 7200; 43200; 200; 1000; 4000; 50]%Z.
Example C116_voc_case : List.length ex_pars = 10%nat /\ (3 <= List.length ex_volts)%nat /\ exp_ok half1 /\ voc_ok ex_pars /\
  (forall tv, In tv ex_volts -> isfin (fst tv) = true /\ 0 <= B2R (fst tv) <= bpow radix2 50) /\ (exists tv, In tv ex_volts /\ 1 <= B2R (fst tv)) /\
  match snd (voc_report half1 no_text no_text (fun _ s => s) (fun _ => ""%string) ex_volts ex_pars 7 (fofZ 3)) with
  | Ok p => feqb (v_zero p) (fofZ 50) && feqb (fst (nth 199 (v_curve p) (fzero, fzero))) (fofZ 6) && feqb (snd (nth 1 (v_resid p) (fzero, fzero))) (fofZ (470 - 49)) | Raise _ => false end = true.
Proof.
  assert (T50 : IZR 2 <= bpow radix2 50) by (change (IZR 2) with (bpow radix2 1); apply bpow_le; lia).
  split; [reflexivity|]. split; [cbn; lia|]. split; [apply C108_voc_case|]. split; [apply C108_voc_case|]. split.
  - assert (G : forall z, (0 <= z <= 2)%Z -> isfin (fofZ z) = true /\ 0 <= B2R (fofZ z) <= bpow radix2 50).
    { intros z Z. destruct (fofZ_val z) as [F V]; [lia|]. split; [exact F|]. rewrite V. split; [apply IZR_le; lia|]. apply Rle_trans with (2 := T50). apply IZR_le. lia. }
    intros tv [<-|[<-|[<-|[]]]]; cbn [fst]; apply G; lia.
  - split; [|vm_compute; reflexivity]. exists (fofZ 2, fofZ (50 - 2)). split; [right; right; left; reflexivity|]. cbn [fst]. destruct (fofZ_val 2) as [F V]; [lia|]. rewrite V. lra.
Qed.

Print Assumptions C116_thermistor. Print Assumptions C116_falls. Print Assumptions C116_small_refuted. Print Assumptions C116_first.
Print Assumptions C116_voc. Print Assumptions C116_voc_falls. Print Assumptions C116_short_refuted.

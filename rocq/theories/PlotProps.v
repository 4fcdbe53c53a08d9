(** * Properties of the scatter plots and figure sizes (C93-C95). *)
From Coq Require Import Reals String Ascii List Bool Arith ZArith Lia Lra Sorted.
From Flocq Require Import Core BinarySingleNaN Relative.
From Verif Require Import Flt FltMore Py RankModel AnalModel AnalRange VsModel PlotModel PlotProofs.
Import ListNotations.
Local Open Scope R_scope.
#[local] Arguments fltb : simpl never.
#[local] Arguments fleb : simpl never.
#[local] Arguments feqb : simpl never.
#[local] Arguments fadd : simpl never.
#[local] Arguments fmul : simpl never.
#[local] Arguments fdiv : simpl never.
#[local] Arguments rnd32 : simpl never.
#[local] Arguments fofZ : simpl never.
#[local] Arguments flit : simpl never.

(** ** C93: the weights of the line fit *)
(** an SSE as the history keeps it, not zero *)
Definition sse_ok (x : f64) : Prop := isfin x = true /\ fltb fzero x = true /\ feqb (rnd32 x) x = true.
Lemma np_min_uniq l m k : np_min l = Ok m -> Forall (fun x => isnan x = false) l -> l <> [] -> In k l -> Forall (fun x => fleb k x = true) l -> key k = key m.
Proof.
  intros E N NE I L. destruct (np_min_spec l NE N) as (m' & E' & I' & L'). rewrite E in E'. injection E' as <-.
  rewrite Forall_forall in L, L'. specialize (L m I'). specialize (L' k I). apply fleb_spec in L as (_ & _ & L). apply fleb_spec in L' as (_ & _ & L'). lra.
Qed.
Lemma sse_nan l : Forall sse_ok l -> Forall (fun x => isnan x = false) l.
Proof. apply Forall_impl. intros x (F & _). now apply nan_fin. Qed.
Lemma sse_key_eq x y : sse_ok x -> key x = key y -> isnan y = false -> x = y.
Proof. intros P E N. destruct (pos32_R x P) as (A & B & C). apply key_inj; auto. lra. Qed.
(** All weights are from 0 to 1, the one of the best individual is 1, and a higher SSE
    never gets a higher weight (if twice the lowest SSE is a binary32 number) *)
Theorem C93_weights sse mn : Forall sse_ok sse -> In mn sse -> (forall s, In s sse -> fleb mn s = true) -> isfin (rnd32 (fmul (fofZ 2) mn)) = true ->
  exists W, weights sse = Ok W /\ length W = length sse /\
    (forall k w, nth_error W k = Some w -> isnan w = false /\ fleb fzero w = true /\ fleb w fone = true) /\
    (forall k, nth_error sse k = Some mn -> exists w, nth_error W k = Some w /\ feqb w fone = true) /\
    (forall j k s t v w, nth_error sse j = Some s -> nth_error sse k = Some t -> nth_error W j = Some v -> nth_error W k = Some w ->
       fleb s t = true -> fleb w v = true).
Proof.
  intros A I L F. assert (NE : sse <> []) by (intros ->; destruct I). destruct (np_min_spec sse NE (sse_nan _ A)) as (m & E & Im & Lm).
  assert (EM : m = mn). { rewrite Forall_forall in A. symmetry. apply sse_key_eq; auto; [|apply nan_fin, A; auto].
    apply (np_min_uniq sse); auto; [apply sse_nan, Forall_forall; auto|apply Forall_forall; auto]. }
  subst m. unfold weights. rewrite E. cbn [bind]. eexists. split; [reflexivity|]. split; [apply map_length|]. rewrite Forall_forall in A, Lm.
  assert (A' : forall x, In x sse -> pos32 x) by exact A.
  split; [|split].
  - intros k w H. rewrite nth_error_map in H. destruct (nth_error sse k) as [s|] eqn:S; [|discriminate]. injection H as <-. apply nth_error_In in S. apply weight_spec; auto.
  - intros k S. exists (weight mn mn). split; [rewrite nth_error_map, S; reflexivity|]. apply weight_best; auto.
  - intros j k s t v w S T V W LE. rewrite nth_error_map, S in V. rewrite nth_error_map, T in W. injection V as <-. injection W as <-.
    apply nth_error_In in S, T. apply weight_mono; auto.
Qed.
(** An SSE that is c times the lowest has the weight 2*lowest/SSE, up to a fraction of
    1/c, as documented, if no number gets near the limits of binary32 *)
Theorem C93_many_times mn s c : sse_ok mn -> sse_ok s -> fleb mn s = true -> 1 <= c -> c * B2R mn <= B2R s ->
  bpow radix2 (-126) <= 2 * B2R mn -> B2R s <= bpow radix2 126 -> bpow radix2 (-124) <= 2 * B2R mn / B2R s ->
  (1 - / c - bpow radix2 (-21)) * (2 * B2R mn / B2R s) <= B2R (weight mn s) <= (1 + bpow radix2 (-21)) * (2 * B2R mn / B2R s).
Proof.
  intros P Q L C1 C Lm Us Lq. destruct (pos32_R mn P) as (M & K & N). destruct (pos32_R s Q) as (S & K' & N').
  assert (Lms : B2R mn <= B2R s) by nra.
  assert (b127 : bpow radix2 127 = 2 * bpow radix2 126). { replace 2 with (bpow radix2 1) by (simpl; lra). rewrite <- bpow_plus. reflexivity. }
  assert (b125 : bpow radix2 (-124) = 2 * bpow radix2 (-125)). { replace 2 with (bpow radix2 1) by (simpl; lra). rewrite <- bpow_plus. reflexivity. }
  set (q0 := 2 * B2R mn / B2R s) in *. assert (qs : q0 * B2R s = 2 * B2R mn) by (unfold q0, Rdiv; rewrite Rmult_assoc, Rinv_l by lra; lra).
  assert (q00 : 0 < q0). { eapply Rlt_le_trans; [apply (bpow_gt_0 radix2 (-124))|exact Lq]. }
  set (q := 2 * B2R mn / (B2R s + B2R mn)). assert (qD : q * (B2R s + B2R mn) = 2 * B2R mn) by (unfold q, Rdiv; rewrite Rmult_assoc, Rinv_l by lra; lra).
  assert (qh : q0 <= 2 * q) by (apply Rmult_le_reg_r with (B2R s); [lra|]; nra).
  assert (qp : 0 < q) by lra.
  assert (qu : q <= q0). { apply Rmult_le_reg_r with (B2R s + B2R mn); [lra|]. rewrite qD. nra. }
  assert (ql : (1 - / c) * q0 <= q).
  { assert (ic : / c * c = 1) by (apply Rinv_l; lra). assert (0 < / c <= 1) by (split; [apply Rinv_0_lt_compat; lra|rewrite <- Rinv_1; apply Rinv_le; lra]).
    assert (mc : B2R mn <= / c * B2R s). { apply Rmult_le_reg_l with c; [lra|]. replace (c * (/ c * B2R s)) with (B2R s) by (rewrite <- Rmult_assoc, Rinv_r by lra; lra). exact C. }
    apply Rmult_le_reg_r with (B2R s); [lra|]. replace ((1 - / c) * q0 * B2R s) with ((1 - / c) * (2 * B2R mn)) by (rewrite <- qs; ring). rewrite <- qD.
    replace ((1 - / c) * (q * (B2R s + B2R mn))) with (q * (B2R s + B2R mn - / c * B2R s - / c * B2R mn)) by ring.
    apply Rmult_le_compat_l; [lra|]. assert (0 <= / c * B2R mn) by (apply Rmult_le_pos; lra). lra. }
  destruct (weight_value mn s P Q L) as (F & E); fold q; try lra. fold q in E. apply Rabs_le_inv in E.
  assert (b21 : 0 < bpow radix2 (-21)) by apply bpow_gt_0.
  assert (b21' : bpow radix2 (-21) * q <= bpow radix2 (-21) * q0) by (apply Rmult_le_compat_l; lra). split; nra.
Qed.
(** If the fit is perfect, the weight of the best individual is not 1 but NaN *)
Theorem C93_perfect_refuted : ~ (forall sse mn W k w, In mn sse -> (forall s, In s sse -> isfin s = true /\ fleb fzero s = true /\ fleb mn s = true) ->
  nth_error sse k = Some mn -> weights sse = Ok W -> nth_error W k = Some w -> feqb w fone = true).
Proof.
  intros H. specialize (H [fzero; fone] fzero (map (weight fzero) [fzero; fone]) 0%nat (weight fzero fzero) (or_introl eq_refl)).
  assert (X : forall s, In s [fzero; fone] -> isfin s = true /\ fleb fzero s = true /\ fleb fzero s = true) by (intros s [<-|[<-|[]]]; repeat split; vm_compute; reflexivity).
  assert (E : weights [fzero; fone] = Ok (map (weight fzero) [fzero; fone])) by reflexivity.
  specialize (H X eq_refl E eq_refl). vm_compute in H. discriminate.
Qed.
Example C93_nonvacuous :
  let sse := [fofZ 3; fofZ 1; fofZ 31] in
  (Forall sse_ok sse /\ In (fofZ 1) sse /\ forall s, In s sse -> fleb (fofZ 1) s = true) /\ isfin (rnd32 (fmul (fofZ 2) (fofZ 1))) = true /\
  option_map (map (fun w => feqb (fmul w (fofZ 16)) (frint (fmul w (fofZ 16))))) (match weights sse with Ok W => Some W | _ => None end) = Some [true; true; true] /\
  option_map (map (fun w => ftrunc (fmul w (fofZ 16)))) (match weights sse with Ok W => Some W | _ => None end) = Some [8%Z; 16%Z; 1%Z] /\
  (30 * B2R (fofZ 1) <= B2R (fofZ 31) /\ bpow radix2 (-124) <= 2 * B2R (fofZ 1) / B2R (fofZ 31)).
Proof.
  assert (S : Forall sse_ok [fofZ 3; fofZ 1; fofZ 31]) by (repeat constructor; vm_compute; reflexivity).
  split; [split; [exact S|]; split; [simpl; auto|intros s [<-|[<-|[<-|[]]]]; vm_compute; reflexivity]|]. split; [vm_compute; reflexivity|].
  split; [vm_compute; reflexivity|]. split; [vm_compute; reflexivity|].
  rewrite (proj2 (fofZ_val 1 eq_refl)), (proj2 (fofZ_val 31 eq_refl)). split; [lra|].
  apply Rle_trans with (bpow radix2 (-4)); [apply bpow_le; lia|]. simpl. lra.
Qed.

(** ** C94: scatter plots *)
Definition cut (K : list nat) (p : f64) : nat := Z.to_nat (Zfloor (B2R (fmul p (fofZ (Z.of_nat (length K)))))).
Definition part (K : list nat) (a b : nat) : list nat := map (fun i => nth i K 0%nat) (seq a (S b - a)).
Lemma slice_seq : forall n (K : list nat) a, (a + n <= length K)%nat -> firstn n (skipn a K) = map (fun i => nth i K 0%nat) (seq a n).
Proof.
  induction n as [|n IH]; intros K a L; [reflexivity|]. cbn [seq map]. rewrite <- IH by lia. destruct (nth_error K a) as [x|] eqn:E; [|apply nth_error_None in E; lia].
  rewrite (nth_error_nth _ _ 0%nat E). destruct (nth_error_split _ _ E) as (u & v & -> & U). subst a.
  assert (A1 : skipn (length u) (u ++ x :: v) = x :: v) by (rewrite skipn_app, skipn_all, Nat.sub_diag; reflexivity).
  assert (A2 : skipn (S (length u)) (u ++ x :: v) = v).
  { replace (S (length u)) with (length (u ++ [x])) by (rewrite app_length; simpl; lia). replace (u ++ x :: v) with ((u ++ [x]) ++ v) by (rewrite <- app_assoc; reflexivity).
    rewrite skipn_app, skipn_all, Nat.sub_diag. reflexivity. }
  rewrite A1, A2. reflexivity.
Qed.
Lemma part_slice K a b : (a <= b < length K)%nat -> firstn (S b - a) (skipn a K) = part K a b.
Proof. intros L. apply slice_seq. lia. Qed.
Lemma Kp12_part K p q : (Z.of_nat (length K) < 2^53)%Z -> fleb fzero p = true -> fleb p q = true -> isfin q = true ->
  isfin (fmul q (fofZ (Z.of_nat (length K)))) = true -> (cut K q < length K)%nat -> (cut K p <= cut K q)%nat /\ Kp12 K p q = Ok (part K (cut K p) (cut K q)).
Proof.
  intros L L0 L1 F FN B. destruct (mul_floor K p q L L0 L1 F FN) as (Fp & Fp' & R1). unfold Kp12. cbv zeta.
  rewrite !ifloor_nonneg by (auto; lra). cbn [bind]. unfold cut in *. set (N := fofZ (Z.of_nat (length K))) in *.
  assert (Z1 : (0 <= Zfloor (B2R (fmul p N)))%Z) by (apply Zfloor_lub; lra). assert (Z2 : (Zfloor (B2R (fmul p N)) <= Zfloor (B2R (fmul q N)))%Z) by (apply Zfloor_le; lra).
  set (a := Zfloor (B2R (fmul p N))) in *. set (b := Zfloor (B2R (fmul q N))) in *. assert (Z3 : (Z.to_nat a <= Z.to_nat b)%nat) by lia. split; [exact Z3|].
  rewrite <- (Z2Nat.id a), <- (Z2Nat.id b) by lia. replace (Z.of_nat (Z.to_nat b) + 1)%Z with (Z.of_nat (S (Z.to_nat b))) by lia. rewrite slice_nat, !Nat2Z.id.
  f_equal. apply part_slice. lia.
Qed.
(** p*N for a literal p that is the binary64 number nearest to r *)
Lemma cut_bounds K p r : K <> [] -> (Z.of_nat (length K) < 2^50)%Z -> isfin p = true -> / 32 <= r <= 3 / 4 -> Rabs (B2R p - r) <= bpow radix2 (-53) ->
  isfin (fmul p (fofZ (Z.of_nat (length K)))) = true /\ (cut K p < length K)%nat /\
  r * INR (length K) - 2 < INR (cut K p) < r * INR (length K) + 1.
Proof.
  intros NE L F R E. destruct (fofZ_val (Z.of_nat (length K))) as [Fn Vn]; [lia|]. rewrite <- INR_IZR_INZ in Vn. unfold cut. set (n := fofZ _) in *.
  assert (N1 : 1 <= INR (length K)). { apply (le_INR 1). destruct K; [congruence|simpl; lia]. }
  assert (N2 : INR (length K) <= bpow radix2 50). { rewrite INR_IZR_INZ. change (bpow radix2 50) with (IZR (2^50)). apply IZR_le. lia. }
  set (N := INR (length K)) in *. apply Rabs_le_inv in E. destruct (fmul_key p n F Fn) as [Nm Km]. rewrite Vn in Km. set (x := B2R p * N) in *.
  assert (b53 : bpow radix2 (-53) * bpow radix2 50 = / 8) by (rewrite <- bpow_plus; simpl; lra).
  assert (b50 : 0 < bpow radix2 (-53) <= / 1024). { split; [apply bpow_gt_0|]. replace (/ 1024) with (bpow radix2 (-10)) by (simpl; lra). apply bpow_le. lia. }
  set (u := bpow radix2 (-53)) in *. assert (uN : u * N <= / 8) by (rewrite <- b53; apply Rmult_le_compat_l; lra).
  assert (X : r * N - / 8 <= x <= r * N + / 8) by (unfold x; split; nra).
  assert (X0 : / 64 <= x) by (unfold x; nra).
  assert (XN : x <= (3 / 4 + / 1024) * N) by (unfold x; apply Rmult_le_compat_r; lra).
  assert (Er : Rabs (rnd x - x) <= u * x).
  { assert (H : Rabs (rnd x - x) <= / 2 * bpow radix2 (-53 + 1) * Rabs x).
    { unfold rnd. fold fexp64. rewrite fexp64_eq. apply relative_error_N_FLT; [reflexivity|]. rewrite Rabs_pos_eq by lra. apply Rle_trans with (/ 64); [|exact X0].
      replace (/ 64) with (bpow radix2 (-6)) by (simpl; lra). apply bpow_le. lia. }
    rewrite (Rabs_pos_eq x) in H by lra. replace (/ 2 * bpow radix2 (-53 + 1)) with u in H; [exact H|]. change (-53 + 1)%Z with (1 + -53)%Z. rewrite bpow_plus. unfold u. simpl (bpow radix2 1). lra. }
  apply Rabs_le_inv in Er. assert (ux : u * x <= / 8) by nra.
  assert (ux' : u * x <= / 1024 * x) by (apply Rmult_le_compat_r; lra).
  assert (B : rnd x < big). { apply Rle_lt_trans with (bpow radix2 51); [|apply bpow_lt; lia]. replace (bpow radix2 51) with (2 * bpow radix2 50); [lra|]. replace 2 with (bpow radix2 1) by (simpl; lra). now rewrite <- bpow_plus. }
  assert (C : crnd x = rnd x). { unfold crnd. apply clamp_id. assert (bp := big_pos). lra. }
  assert (Fm : isfin (fmul p n) = true). { apply fin_key; auto. rewrite Km, C. assert (bp := big_pos). lra. }
  split; [exact Fm|]. rewrite key_fin, C in Km by auto. rewrite Km.
  assert (Z0 : (0 <= Zfloor (rnd x))%Z) by (apply Zfloor_lub; lra). assert (Zl := Zfloor_lb (rnd x)). assert (Zu := Zfloor_ub (rnd x)).
  assert (I : INR (Z.to_nat (Zfloor (rnd x))) = IZR (Zfloor (rnd x))) by (rewrite INR_IZR_INZ, Z2Nat.id by lia; reflexivity).
  split; [|rewrite I; lra]. apply INR_lt. fold N. rewrite I. lra.
Qed.

Lemma mapM_all {A B} (f : A -> res B) (g : A -> B) l : (forall x, In x l -> f x = Ok (g x)) -> mapM f l = Ok (map g l).
Proof. induction l as [|x l IH]; intros H; cbn; [reflexivity|]. rewrite (H x) by (simpl; auto). cbn. rewrite IH by (intros; apply H; simpl; auto). reflexivity. Qed.
Lemma col_map X K i n : (forall r, In r K -> length (X r) = n) -> (i < n)%nat -> col X K (Z.of_nat i) = Ok (map (fun r => nth i (X r) fnan) K).
Proof.
  intros H L. unfold col. apply mapM_all. intros r I. specialize (H r I). unfold py_index. destruct (Z.ltb_spec (Z.of_nat i) 0); [lia|].
  destruct (Z.ltb_spec (Z.of_nat i) 0); [lia|]. rewrite Nat2Z.id. destruct (nth_error (X r) i) as [v|] eqn:E; [erewrite nth_error_nth by exact E; reflexivity|]. apply nth_error_None in E. lia.
Qed.
Lemma name_k names i n : NoDup names -> nth_error names i = Some n -> name2k names n = Ok (Z.of_nat (S i)) /\ k2name names (Z.of_nat (S i)) = Ok n.
Proof.
  intros ND E. split.
  - unfold name2k. assert (H : index_of (String.eqb n) names = Some i).
    { revert i E. induction names as [|a l IH]; intros [|i] E; try discriminate; cbn in *.
      - injection E as ->. rewrite String.eqb_refl. reflexivity.
      - inversion ND; subst. destruct (String.eqb_spec n a) as [->|NE]; [apply nth_error_In in E; contradiction|]. rewrite (IH H2 i E). reflexivity. }
    rewrite H. f_equal. lia.
  - unfold k2name, py_index. destruct (Z.ltb_spec (Z.of_nat (S i) - 1) 0); [lia|]. destruct (Z.ltb_spec (Z.of_nat (S i) - 1) 0); [lia|].
    replace (Z.to_nat (Z.of_nat (S i) - 1)) with i by lia. rewrite E. reflexivity.
Qed.
Lemma part_in K a b r : (a <= b < length K)%nat -> In r (part K a b) -> In r K.
Proof. intros L I. unfold part in I. apply in_map_iff in I. destruct I as (i & <- & I). apply in_seq in I. apply nth_In. lia. Qed.
Lemma np_max_spec l : l <> [] -> Forall (fun x => isnan x = false) l -> exists m, np_max l = Ok m /\ In m l /\ Forall (fun x => fleb x m = true) l.
Proof.
  destruct l as [|x l]; [congruence|]. intros _ F. unfold np_max. eexists. split; [reflexivity|]. inversion F as [|? ? X Fl]; subst. clear F.
  set (g := fun a b : f64 => if isnan a then a else if isnan b then b else if fltb a b then b else a).
  revert x X. induction l as [|y l IH]; intros x X; cbn [fold_left].
  - split; [left; auto|]. repeat constructor. now apply fleb_refl.
  - inversion Fl as [|? ? Y Fl']; subst. assert (G : isnan (g x y) = false /\ (g x y = x \/ g x y = y) /\ fleb x (g x y) = true /\ fleb y (g x y) = true).
    { unfold g. rewrite X, Y. destruct (fltb x y) eqn:E; repeat split; auto; try (now apply fltb_fleb); try (now apply fleb_refl).
      apply fleb_spec. repeat split; auto. now apply fltb_false. }
    destruct G as (N & O & L1 & L2). destruct (IH Fl' (g x y) N) as (I & H). set (m := fold_left g l (g x y)) in *. inversion H as [|? ? G1 G2]; subst. split.
    + destruct I as [I|I]; [destruct O as [O|O]; rewrite O in I; simpl; auto|simpl; auto].
    + constructor; [eapply fleb_trans; eauto|]. constructor; [eapply fleb_trans; eauto|exact G2].
Qed.

(** the fractions of the rows at which the size of the points changes *)
Definition fracs : list R := [1/20; 1/10; 1/5; 1/2; 7/10].
(** plotXY of two parameters, by name: the labels are the names; the line is the fit to
    the better half of the individuals, each with its weight; the points are the two
    values of the same individuals; the rows of each of the five series are contiguous
    in the order of SSEs, starting with the last of the one before, at 5%, 10%, 20%,
    50% and 70% of the rows; a series with higher SSEs has smaller points *)
Theorem C94_scatter rd polyfit names X K n1 n2 i1 i2 W bm : NoDup names -> nth_error names i1 = Some n1 -> nth_error names i2 = Some n2 ->
  K <> [] -> (Z.of_nat (length K) < 2^50)%Z -> (forall r, In r K -> length (X r) = S (length names)) ->
  let value i rows := map (fun r => nth (S i) (X r) fnan) rows in
  let half := firstn (length K / 2 + 1) K in
  weights (map (fun r => nth 0 (X r) fnan) half) = Ok W -> polyfit (value i1 half) (value i2 half) W = Ok bm ->
  exists r c, plotXY rd polyfit names X K (PName n1) (PName n2) false = Ok r /\
    xlabel r = n1 /\ ylabel r = n2 /\ slope r = snd bm /\ icept r = fst bm /\
    (Forall (fun v => isnan v = false) (value i1 half) ->
       In (fst (line_x r)) (value i1 half) /\ In (snd (line_x r)) (value i1 half) /\
       forall v, In v (value i1 half) -> fleb (fst (line_x r)) v = true /\ fleb v (snd (line_x r)) = true) /\
    length (drawn r) = 5%nat /\ StronglySorted (fun p q => fltb (psize q) (psize p) = true) (drawn r) /\
    c 0%nat = 0%nat /\ (c 5 < length K)%nat /\
    forall j p, nth_error (drawn r) j = Some p -> (c j <= c (S j))%nat /\
      (let rows := map (fun i => nth i K 0%nat) (seq (c j) (S (c (S j)) - c j)) in px p = value i1 rows /\ py p = value i2 rows) /\
      nth j fracs 0 * INR (length K) - 2 < INR (c (S j)) < nth j fracs 0 * INR (length K) + 1.
Proof.
  intros ND E1 E2 NE L RL value half HW HP. destruct (name_k _ _ _ ND E1) as (A1 & B1). destruct (name_k _ _ _ ND E2) as (A2 & B2).
  assert (I1 : (S i1 < S (length names))%nat) by (apply -> Nat.succ_lt_mono; apply nth_error_Some; congruence).
  assert (I2 : (S i2 < S (length names))%nat) by (apply -> Nat.succ_lt_mono; apply nth_error_Some; congruence).
  assert (L53 : (Z.of_nat (length K) < 2^53)%Z) by lia.
  assert (N1 : (1 <= length K)%nat) by (destruct K; [congruence|simpl; lia]).
  set (p1 := flit 7205759403792794 (-57)). set (p2 := flit 7205759403792794 (-56)). set (p3 := flit 7205759403792794 (-55)). set (p4 := flit 1 (-1)). set (p5 := flit 6305039478318694 (-53)).
  assert (LIT : forall m e r, (Z.abs m < 2^53)%Z -> (-1074 <= e <= 971)%Z -> Rabs (IZR m * bpow radix2 e - r) <= bpow radix2 (-53) -> isfin (flit m e) = true /\ Rabs (B2R (flit m e) - r) <= bpow radix2 (-53)).
  { intros m e r M E R. destruct (flit_val m e M E) as (F & V). split; [exact F|]. rewrite V. exact R. }
  assert (V1 : isfin p1 = true /\ Rabs (B2R p1 - 1/20) <= bpow radix2 (-53)) by (apply LIT; [reflexivity|lia|apply Rabs_le; simpl; lra]).
  assert (V2 : isfin p2 = true /\ Rabs (B2R p2 - 1/10) <= bpow radix2 (-53)) by (apply LIT; [reflexivity|lia|apply Rabs_le; simpl; lra]).
  assert (V3 : isfin p3 = true /\ Rabs (B2R p3 - 1/5) <= bpow radix2 (-53)) by (apply LIT; [reflexivity|lia|apply Rabs_le; simpl; lra]).
  assert (V4 : isfin p4 = true /\ Rabs (B2R p4 - 1/2) <= bpow radix2 (-53)) by (apply LIT; [reflexivity|lia|apply Rabs_le; simpl; lra]).
  assert (V5 : isfin p5 = true /\ Rabs (B2R p5 - 7/10) <= bpow radix2 (-53)) by (apply LIT; [reflexivity|lia|apply Rabs_le; simpl; lra]).
  destruct (cut_bounds K p1 (1/20) NE L (proj1 V1) ltac:(lra) (proj2 V1)) as (F1 & C1 & D1).
  destruct (cut_bounds K p2 (1/10) NE L (proj1 V2) ltac:(lra) (proj2 V2)) as (F2 & C2 & D2).
  destruct (cut_bounds K p3 (1/5) NE L (proj1 V3) ltac:(lra) (proj2 V3)) as (F3 & C3 & D3).
  destruct (cut_bounds K p4 (1/2) NE L (proj1 V4) ltac:(lra) (proj2 V4)) as (F4 & C4 & D4).
  destruct (cut_bounds K p5 (7/10) NE L (proj1 V5) ltac:(lra) (proj2 V5)) as (F5 & C5 & D5).
  assert (Lz : forall p, isfin p = true -> fleb fzero p = true -> fleb fzero p = true) by auto.
  assert (O01 : fleb fzero p1 = true) by (vm_compute; reflexivity). assert (O12 : fleb p1 p2 = true) by (vm_compute; reflexivity).
  assert (O23 : fleb p2 p3 = true) by (vm_compute; reflexivity). assert (O34 : fleb p3 p4 = true) by (vm_compute; reflexivity). assert (O45 : fleb p4 p5 = true) by (vm_compute; reflexivity).
  assert (O00 : fleb fzero fzero = true) by (vm_compute; reflexivity).
  assert (Z0 : cut K fzero = 0%nat).
  { unfold cut. destruct (fofZ_val (Z.of_nat (length K))) as [Fn Vn]; [lia|]. destruct (fmul_key fzero (fofZ (Z.of_nat (length K))) eq_refl Fn) as [Nm Km].
    replace (B2R fzero * B2R (fofZ (Z.of_nat (length K)))) with 0 in Km by (simpl; lra). rewrite crnd_0 in Km.
    assert (Fm : isfin (fmul fzero (fofZ (Z.of_nat (length K)))) = true) by (apply fin_key; auto; rewrite Km; assert (bp := big_pos); lra).
    rewrite key_fin in Km by auto. rewrite Km, Zfloor_IZR. reflexivity. }
  destruct (Kp12_part K fzero p1 L53 O00 O01 (proj1 V1) F1 C1) as (M1 & S1).
  destruct (Kp12_part K p1 p2 L53 O01 O12 (proj1 V2) F2 C2) as (M2 & S2).
  destruct (Kp12_part K p2 p3 L53 (fleb_trans _ _ _ O01 O12) O23 (proj1 V3) F3 C3) as (M3 & S3).
  destruct (Kp12_part K p3 p4 L53 (fleb_trans _ _ _ (fleb_trans _ _ _ O01 O12) O23) O34 (proj1 V4) F4 C4) as (M4 & S4).
  destruct (Kp12_part K p4 p5 L53 (fleb_trans _ _ _ (fleb_trans _ _ _ (fleb_trans _ _ _ O01 O12) O23) O34) O45 (proj1 V5) F5 C5) as (M5 & S5).
  assert (O04 : fleb fzero p4 = true) by (vm_compute; reflexivity).
  destruct (Kp12_part K fzero p4 L53 O00 O04 (proj1 V4) F4 C4) as (M6 & S6).
  (* the better half *)
  assert (CH : cut K p4 = (length K / 2)%nat).
  { unfold cut. destruct (fofZ_val (Z.of_nat (length K))) as [Fn Vn]; [lia|]. destruct (fmul_key p4 (fofZ (Z.of_nat (length K))) (proj1 V4) Fn) as [Nm Km].
    rewrite (key_fin _ F4) in Km. assert (VP : B2R p4 = / 2). { unfold p4. destruct (flit_val 1 (-1)) as (_ & ->); [reflexivity|lia|]. simpl. lra. }
    rewrite VP, Vn in Km. assert (EX : crnd (/ 2 * IZR (Z.of_nat (length K))) = / 2 * IZR (Z.of_nat (length K))).
    { destruct (flit_val (Z.of_nat (length K)) (-1)) as (_ & V); [lia|lia|]. replace (/ 2 * IZR (Z.of_nat (length K))) with (B2R (flit (Z.of_nat (length K)) (-1))) by (rewrite V; simpl; lra). apply crnd_B2R. }
    rewrite EX in Km. rewrite Km. replace (Zfloor (/ 2 * IZR (Z.of_nat (length K)))) with (Z.of_nat (length K) / 2)%Z.
    - apply Nat2Z.inj. rewrite Z2Nat.id by (apply Z.div_pos; lia). rewrite Nat2Z.inj_div. reflexivity.
    - symmetry. replace (/ 2 * IZR (Z.of_nat (length K))) with (IZR (Z.of_nat (length K)) / IZR 2) by (simpl; lra). apply Zfloor_div. lia. }
  assert (HH : part K 0 (cut K p4) = half). { rewrite CH. rewrite <- part_slice by lia. unfold half. cbn [skipn]. f_equal. lia. }
  rewrite Z0, HH in S6. rewrite Z0 in *.
  assert (RH : forall r, In r half -> length (X r) = S (length names)) by (intros r I; apply RL; rewrite <- HH in I; eapply part_in; [|exact I]; lia).
  assert (CB : forall rows i, (forall r, In r rows -> In r K) -> (S i < S (length names))%nat -> col X rows (Z.of_nat (S i)) = Ok (value i rows)).
  { intros rows i H Li. apply (col_map X rows (S i) (S (length names))); [intros r I; apply RL, H, I|exact Li]. }
  assert (CP : forall a b i, (a <= b < length K)%nat -> (S i < S (length names))%nat -> col X (part K a b) (Z.of_nat (S i)) = Ok (value i (part K a b))) by (intros a b i Lab Li; apply CB; [intros r; now apply part_in|exact Li]).
  assert (CHf : forall i, (S i < S (length names))%nat -> col X half (Z.of_nat (S i)) = Ok (value i half)) by (intros i Li; rewrite <- HH; apply CP; [lia|exact Li]).
  assert (C0f : col X half 0 = Ok (map (fun r => nth 0 (X r) fnan) half)) by (apply (col_map X half 0 (S (length names))); [exact RH|lia]).
  assert (HN : value i1 half <> []). { unfold value, half. destruct K as [|k K']; [congruence|]. rewrite Nat.add_1_r. discriminate. }
  assert (MN : exists x0, np_min (value i1 half) = Ok x0) by (destruct (value i1 half); [congruence|eexists; reflexivity]).
  assert (MX : exists x1, np_max (value i1 half) = Ok x1) by (destruct (value i1 half); [congruence|eexists; reflexivity]).
  destruct MN as (x0 & MN). destruct MX as (x1 & MX).
  set (cs := [0; cut K p1; cut K p2; cut K p3; cut K p4; cut K p5]%nat).
  set (pt := fun a b ms => mkPoints ms (value i1 (part K a b)) (value i2 (part K a b))).
  set (pts := [pt 0%nat (cut K p1) (fofZ 3); pt (cut K p1) (cut K p2) (fofZ 2); pt (cut K p2) (cut K p3) (flit 3 (-1)); pt (cut K p3) (cut K p4) (fofZ 1); pt (cut K p4) (cut K p5) (flit 1 (-1))]).
  assert (MK : marks (fun f1 f2 => Kp12 K f1 f2) X (Z.of_nat (S i1)) (Z.of_nat (S i2)) fzero fmms = Ok pts).
  { unfold fmms. cbn [marks]. fold p1 p2 p3 p4 p5.
    change (feqb (fofZ 3) fzero) with false. change (feqb (fofZ 2) fzero) with false. change (feqb (flit 3 (-1)) fzero) with false. change (feqb (fofZ 1) fzero) with false.
    change (feqb p4 fzero) with false. change (feqb fzero fzero) with true. cbv iota.
    rewrite S1, S2, S3, S4, S5. cbn [bind]. rewrite !CP by (auto; lia). cbn [bind]. reflexivity. }
  exists (mkXY n1 n2 (snd bm) (fst bm) (x0, x1) pts), (fun j => nth j cs 0%nat).
  split.
  { unfold plotXY. cbn [xyk]. rewrite A1, A2. cbn [bind]. rewrite B1, B2. cbn [bind]. fold p4. rewrite S6. cbn [bind]. unfold lineFit. rewrite C0f. cbn [bind]. rewrite HW. cbn [bind].
    rewrite !CHf by assumption. cbn [bind]. rewrite HP. cbn [bind]. rewrite MN. cbn [bind]. rewrite MX. cbn [bind]. rewrite MK. reflexivity. }
  cbn [xlabel ylabel slope icept line_x drawn fst snd]. repeat (split; [reflexivity|]). split.
  { intros NN. destruct (np_min_spec _ HN NN) as (m & Em & Im & Lm). destruct (np_max_spec _ HN NN) as (M & EM & IM & LM). rewrite MN in Em. rewrite MX in EM. injection Em as <-. injection EM as <-.
    rewrite Forall_forall in Lm, LM. repeat split; auto. }
  split; [reflexivity|]. split; [repeat constructor; vm_compute; reflexivity|]. split; [reflexivity|]. split; [exact C5|].
  intros j p H. destruct j as [|[|[|[|[|j]]]]]; cbn in H; try (destruct j; discriminate); injection H as <-; cbn [nth cs fracs pt px py];
  (split; [lia|]); (split; [split; reflexivity|]); assumption.
Qed.
(** A parameter may be given by the number of its column instead, counting the SSE as column 0 *)
Theorem C94_columns rd polyfit names X K n1 n2 i1 i2 b : NoDup names -> nth_error names i1 = Some n1 -> nth_error names i2 = Some n2 ->
  plotXY rd polyfit names X K (PInt (Z.of_nat (S i1))) (PInt (Z.of_nat (S i2))) b = plotXY rd polyfit names X K (PName n1) (PName n2) b.
Proof.
  intros ND E1 E2. destruct (name_k _ _ _ ND E1) as (A1 & _). destruct (name_k _ _ _ ND E2) as (A2 & _).
  unfold plotXY. cbn [xyk]. rewrite A1, A2. reflexivity.
Qed.
(** Not all individuals are drawn: those with the highest 30% of SSEs are not *)
Definition xy_rows (r : nat) : list f64 := [fofZ (Z.of_nat r + 1); fofZ (Z.of_nat r); fofZ (2 * Z.of_nat r)].
Definition xy_ex : res xyplot := plotXY (fun x => x) (fun _ _ _ => Ok (fzero, fofZ 2)) ["a"; "b"]%string xy_rows (seq 0 10) (PName "a"%string) (PName "b"%string) false.
Theorem C94_all_drawn_refuted : ~ (forall rd polyfit names X K n1 n2 r, NoDup names -> K <> [] -> (forall k, In k K -> length (X k) = S (length names)) ->
  plotXY rd polyfit names X K (PName n1) (PName n2) false = Ok r ->
  forall k z, In k K -> name2k names n1 = Ok z -> exists p v, In p (drawn r) /\ In v (px p) /\ feqb v (nth (Z.to_nat z) (X k) fnan) = true).
Proof.
  intros H. assert (U : match xy_ex with Ok r => existsb (fun p => existsb (fun v => feqb v (fofZ 9)) (px p)) (drawn r) | _ => true end = false) by (vm_compute; reflexivity).
  destruct xy_ex as [r|] eqn:E; [|discriminate]. unfold xy_ex in E.
  assert (ND : NoDup ["a"; "b"]%string) by (constructor; [intros [X|[]]; discriminate|constructor; [intros []|constructor]]).
  assert (KN : seq 0 10 <> []) by discriminate.
  assert (LN : forall k, In k (seq 0 10) -> length (xy_rows k) = S (length ["a"; "b"]%string)) by (intros k _; reflexivity).
  assert (I9 : In 9%nat (seq 0 10)) by (apply in_seq; lia).
  assert (NK : name2k ["a"; "b"]%string "a"%string = Ok 1%Z) by reflexivity.
  specialize (H (fun x => x) (fun _ _ _ => Ok (fzero, fofZ 2)) ["a"; "b"]%string xy_rows (seq 0 10) "a"%string "b"%string r ND KN LN E 9%nat 1%Z I9 NK). clear E.
  change (nth (Z.to_nat 1) (xy_rows 9) fnan) with (fofZ 9) in H.
  destruct H as (p & v & I & J & Q).
  assert (T : existsb (fun p => existsb (fun v => feqb v (fofZ 9)) (px p)) (drawn r) = true).
  { apply existsb_exists. exists p. split; [exact I|]. apply existsb_exists. exists v. split; [exact J|]. exact Q. }
  rewrite T in U. discriminate.
Qed.
Example C94_nonvacuous :
  match xy_ex with
  | Ok r => (xlabel r, ylabel r, map (fun p => (map ftrunc (px p), map ftrunc (py p))) (drawn r), ftrunc (fst (line_x r)), ftrunc (snd (line_x r)))
  | Raise _ => (EmptyString, EmptyString, [], 0%Z, 0%Z)
  end = ("a"%string, "b"%string, [([0], [0]); ([0; 1], [0; 2]); ([1; 2], [2; 4]); ([2; 3; 4; 5], [4; 6; 8; 10]); ([5; 6; 7], [10; 12; 14])]%Z, 0%Z, 5%Z).
Proof. vm_compute. reflexivity. Qed.

(** ** C95: the size of figures *)
Section Size.
Variable tofloat : string -> res f64.
Variable DPI : f64.
Notation WH := (widthHeight tofloat DPI).
Notation MP := (makePlotter tofloat DPI).

Lemma has_x_app a b : has_x (a ++ b) = has_x a || has_x b.
Proof. induction a as [|c a IH]; cbn; [reflexivity|]. rewrite IH. now rewrite orb_assoc. Qed.
Lemma split_none a : has_x a = false -> split_x a = [a].
Proof. induction a as [|c a IH]; cbn; [reflexivity|]. intros H. apply orb_false_iff in H as [H1 H2]. rewrite H1, (IH H2). reflexivity. Qed.
Lemma split_app a b : has_x a = false -> split_x (a ++ String "x" b) = a :: split_x b.
Proof. induction a as [|c a IH]; intros H; [reflexivity|]. cbn in *. apply orb_false_iff in H as [H1 H2]. rewrite H1, (IH H2). reflexivity. Qed.
(** "W" and "WxH" are taken as pixels; without either the width is 12 inches *)
Theorem C95_dims w h fw fh : has_x w = false -> has_x h = false -> tofloat w = Ok fw -> tofloat h = Ok fh ->
  WH (Some (w ++ "x" ++ h)%string) = Ok (fdiv fw DPI, Some (fdiv fh DPI)) /\
  (w <> EmptyString -> WH (Some w) = Ok (fdiv fw DPI, None)) /\
  WH None = Ok (fofZ 12, None) /\ WH (Some EmptyString) = Ok (fofZ 12, None).
Proof.
  intros Xw Xh Ew Eh. assert (E : WH (Some (w ++ "x" ++ h)%string) = Ok (fdiv fw DPI, Some (fdiv fh DPI))).
  { unfold widthHeight. destruct (w ++ "x" ++ h)%string as [|c r] eqn:S; [destruct w; discriminate|]. rewrite <- S. rewrite has_x_app. cbn [append has_x].
    replace (Ascii.eqb "x" "x") with true by reflexivity. rewrite orb_true_r. change ("x" ++ h)%string with (String "x" h). rewrite split_app by exact Xw. rewrite split_none by exact Xh. cbn [mapM].
    unfold inches. rewrite Ew, Eh. reflexivity. }
  split; [exact E|]. split; [|split; reflexivity]. intros NE. unfold widthHeight. destruct w as [|c r]; [congruence|]. rewrite Xw. unfold inches. rewrite Ew. reflexivity.
Qed.
(** More than two numbers are refused *)
Theorem C95_three a b c fa fb : has_x a = false -> has_x b = false -> tofloat a = Ok fa -> tofloat b = Ok fb ->
  forall r, WH (Some (a ++ "x" ++ b ++ "x" ++ c)%string) = r -> exists e, r = Raise e.
Proof.
  intros Xa Xb Ea Eb r <-. unfold widthHeight. destruct (a ++ "x" ++ b ++ "x" ++ c)%string as [|x s] eqn:S; [destruct a; discriminate|]. rewrite <- S. rewrite has_x_app. cbn [append has_x].
  replace (Ascii.eqb "x" "x") with true by reflexivity. rewrite orb_true_r. change ("x" ++ b ++ "x" ++ c)%string with (String "x" (b ++ String "x" c)). rewrite split_app by exact Xa. rewrite split_app by exact Xb. cbn [mapM].
  unfold inches at 1. rewrite Ea. cbn [bind]. unfold inches at 1. rewrite Eb. cbn [bind]. destruct (split_x c) as [|y l] eqn:Sc.
  - exfalso. destruct c as [|z c]; [discriminate|]. cbn in Sc. destruct (Ascii.eqb z "x"); [discriminate|]. destruct (split_x c); discriminate.
  - cbn [mapM]. destruct (inches tofloat DPI y) as [v|e]; cbn [bind]; [|eauto]. destruct (mapM (inches tofloat DPI) l) as [vs|e]; cbn [bind]; eauto.
Qed.

(** a call of makePlotter: width, height, dims; number of rows and columns *)
Record mcall : Type := mkCall { cw : option f64; ch : option f64; cd : option string; cr : nat; cc : nat }.
Fixpoint calls (s : option fspec2) (l : list mcall) : list (res (option string * option f64 * option f64)) :=
  match l with
  | [] => []
  | c :: l => match MP s (cw c) (ch c) (cd c) (cr c) (cc c) with
              | Ok (s', r) => Ok r :: calls s' l
              | Raise e => [Raise e]
              end
  end.
(** With a file path set, each figure goes to a new file, and has the width and height
    given with the path; if there was no height, the one that makes subplots square, but
    at most 0.7 of the width *)
Theorem C95_files base dims w h l s : WH dims = Ok (w, h) -> feqb w fzero = false -> (forall v, h = Some v -> feqb v fzero = false) ->
  set_path2 tofloat DPI base dims = Ok s -> Forall (fun c => 0 < cc c)%nat l ->
  exists cap, isfin cap = true /\ Rabs (B2R cap - 7 / 10) <= bpow radix2 (-54) /\
  length (calls (Some s) l) = length l /\
  forall k c, nth_error l k = Some c -> exists p hh, nth_error (calls (Some s) l) k = Some (Ok (Some p, Some w, hh)) /\
    nth_error (next_paths (length l) (set_path base)) k = Some p /\
    (forall v, h = Some v -> hh = Some v) /\
    (h = None -> forall q, q = fdiv (fofZ (Z.of_nat (cr c))) (fofZ (Z.of_nat (cc c))) ->
       hh = truthy (Some (fmul w (if fltb q cap then q else cap)))).
Proof.
  intros E NW NH ES F. exists f07. destruct (flit_val 6305039478318694 (-53)) as [F7 V7]; [reflexivity|lia|]. split; [exact F7|]. split; [unfold f07; rewrite V7; apply Rabs_le; simpl; lra|]. clear F7 V7. unfold set_path2 in ES. rewrite E in ES. cbn [bind fst snd] in ES. injection ES as <-. generalize (set_path base) as f. clear E.
  induction l as [|c l IH]; intros f; [split; [reflexivity|intros [|k] c H; discriminate]|]. inversion F as [|? ? Fc Fl]; subst. cbn [calls length].
  assert (STEP : exists hh, MP (Some (mkSpec2 f w h)) (cw c) (ch c) (cd c) (cr c) (cc c) = Ok (Some (mkSpec2 (fst (next_path f)) w h), (Some (snd (next_path f)), Some w, hh)) /\
    (forall v, h = Some v -> hh = Some v) /\ (h = None -> forall q, q = fdiv (fofZ (Z.of_nat (cr c))) (fofZ (Z.of_nat (cc c))) -> hh = truthy (Some (fmul w (if fltb q f07 then q else f07))))).
  { unfold makePlotter, next_path2. cbn [PlotModel.sp PlotModel.sw PlotModel.sh]. destruct (next_path f) as [f' p]. cbn [fst snd]. destruct h as [v|].
    - cbn [bind truthy]. rewrite NW, (NH v eq_refl). eexists. split; [reflexivity|]. split; [auto|discriminate].
    - destruct (Nat.eqb_spec (cc c) 0) as [Z|_]; [lia|]. cbn [bind]. unfold truthy at 1. rewrite NW. eexists. split; [reflexivity|]. split; [discriminate|].
      intros _ q ->. unfold py_min2. reflexivity. }
  destruct STEP as (hh & -> & H1 & H2). destruct (IH Fl (fst (next_path f))) as (LE & IHk). split; [cbn [length]; now rewrite LE|].
  intros [|k] c' H.
  - injection H as <-. exists (snd (next_path f)), hh. split; [reflexivity|]. split; [|split; auto]. cbn [next_paths]. destruct (next_path f); reflexivity.
  - cbn [nth_error] in *. destruct (IHk k c' H) as (p & h2 & X1 & X2 & X3 & X4). exists p, h2. split; [exact X1|]. split; [|split; auto].
    cbn [next_paths]. destruct (next_path f) as [f' p']. exact X2.
Qed.
(** Without one, a window has the dimensions given, or none *)
Theorem C95_window width height dims w h Nr Nc : (dims = None \/ dims = Some EmptyString -> MP None width height dims Nr Nc = Ok (None, (None, truthy width, truthy height))) /\
  (dims <> None -> dims <> Some EmptyString -> WH dims = Ok (w, h) -> MP None width height dims Nr Nc = Ok (None, (None, truthy (Some w), truthy h))).
Proof.
  split.
  - intros [->| ->]; reflexivity.
  - intros N1 N2 E. unfold makePlotter. cbn [next_path2]. destruct dims as [[|c d]|]; [congruence| |congruence]. rewrite E. reflexivity.
Qed.
End Size.
(** With a file path set, the keyword dims has no effect, though it is documented to give
    the size of the files *)
Theorem C95_dims_of_files_refuted : ~ (forall tofloat DPI s dims w h Nr Nc s' p w' h', widthHeight tofloat DPI dims = Ok (w, Some h) -> (0 < Nc)%nat ->
  makePlotter tofloat DPI (Some s) None None dims Nr Nc = Ok (s', (Some p, Some w', h')) -> feqb w' w = true).
Proof.
  intros H. pose (t := fun _ : string => Ok (fofZ 800)). pose (s := mkSpec2 (set_path "a.png") (fofZ 12) (Some (fofZ 9))).
  assert (X : match makePlotter t (fofZ 100) (Some s) None None (Some "800x800"%string) 1 1 with Ok (_, (Some _, Some w', _)) => feqb w' (fofZ 8) | _ => true end = false) by (vm_compute; reflexivity).
  destruct (makePlotter t (fofZ 100) (Some s) None None (Some "800x800"%string) 1 1) as [[s' [[p w'] h']]|] eqn:E; [|discriminate].
  destruct p as [p|]; [|discriminate]. destruct w' as [w'|]; [|discriminate].
  assert (Y := H t (fofZ 100) s (Some "800x800"%string) (fdiv (fofZ 800) (fofZ 100)) (fdiv (fofZ 800) (fofZ 100)) 1%nat 1%nat s' p w' h' eq_refl (Nat.lt_0_succ 0) E).
  apply feqb_spec in Y as (N1 & N2 & Y). assert (Z : feqb w' (fofZ 8) = true); [|congruence]. apply feqb_spec. split; [exact N1|]. split; [reflexivity|]. rewrite Y. vm_compute. reflexivity.
Qed.
Example C95_nonvacuous :
  let t := fun s : string => if String.eqb s "1200" then Ok (fofZ 1200) else if String.eqb s "600" then Ok (fofZ 600) else Raise ValueError in
  let v x := match x with Some f => ftrunc f | None => (-1)%Z end in
  match widthHeight t (fofZ 100) (Some "1200x600"%string) with Ok (w, h) => (ftrunc w, v h) | _ => (0, 0)%Z end = (12, 6)%Z /\
  widthHeight t (fofZ 100) (Some "1200x600x600"%string) = Raise ValueError /\
  match set_path2 t (fofZ 100) "d/f.png" (Some "600"%string) with
  | Ok s => map (fun r => match r with Ok (p, w, h) => (p, v w, v (option_map (fmul (fofZ 10)) h)) | _ => (None, 0%Z, 0%Z) end)
      (calls t (fofZ 100) (Some s) [mkCall None None (Some "1200"%string) 1 1; mkCall None None None 1 2])
  | _ => []
  end = [(Some "d/f.png"%string, 6%Z, 41%Z); (Some "d/f-2.png"%string, 6%Z, 30%Z)].
Proof. repeat split; vm_compute; reflexivity. Qed.

Print Assumptions C93_weights.
Print Assumptions C93_many_times.
Print Assumptions C93_perfect_refuted.
Print Assumptions C94_scatter.
Print Assumptions C94_all_drawn_refuted.
Print Assumptions C95_dims.
Print Assumptions C95_three.
Print Assumptions C95_files.
Print Assumptions C95_window.
Print Assumptions C95_dims_of_files_refuted.

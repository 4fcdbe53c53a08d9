(** * Kf12 and Kp12: lemmas *)
From Coq Require Import List Bool Arith ZArith Reals Lra Lia Sorted Psatz.
From Flocq Require Import Core BinarySingleNaN.
From Verif Require Import Flt FltMore Py RankModel ParamProofs SampFloat AnalModel.
Import ListNotations.
Local Open Scope R_scope.

(** a number that binary32 represents *)
Definition b32 (x : f64) : Prop := feqb (rnd32 x) x = true.
Lemma fadd_mono : forall s x y, isfin s = true -> fleb x y = true -> fleb (fadd s x) (fadd s y) = true.
Proof.
  intros s x y F L. apply fleb_spec in L as (Nx & Ny & L). apply fleb_spec.
  split; [now apply fadd_fin_any|]. split; [now apply fadd_fin_any|].
  assert (B := fun z => key_bound (fadd s z)). assert (bp := big_pos).
  destruct (isfin_cases x Nx) as [Fx|[->| ->]].
  - destruct (isfin_cases y Ny) as [Fy|[->| ->]].
    + destruct (fadd_key s x F Fx) as [_ ->]. destruct (fadd_key s y F Fy) as [_ ->]. rewrite !key_fin in L by auto. apply crnd_mono. lra.
    + replace (key (fadd s finf)) with big by (destruct s; try discriminate; auto). apply B.
    + exfalso. assert (X := fin_bound x). rewrite key_fin in L by auto. simpl in L. lra.
  - destruct (isfin_cases y Ny) as [Fy|[->| ->]].
    + exfalso. assert (X := fin_bound y). rewrite (key_fin y) in L by auto. simpl in L. lra.
    + lra.
    + simpl in L. lra.
  - replace (key (fadd s fninf)) with (- big) by (destruct s; try discriminate; auto). apply B.
Qed.
Definition precision (rd : f64 -> f64) : Prop := rd = (fun x => x) \/ rd = rnd32.
Lemma rd_nan : forall rd x, precision rd -> isnan (rd x) = isnan x.
Proof. intros rd x [->| ->]; auto. apply rnd32_nan. Qed.
Lemma rd_mono : forall rd x y, precision rd -> fleb x y = true -> fleb (rd x) (rd y) = true.
Proof. intros rd x y [->| ->]; auto. apply rnd32_mono. Qed.

(** the usable span of SSEs *)
Definition okspan (s0 s1 : f64) : Prop := fleb fzero s0 = true /\ fleb s0 s1 = true /\ isfin s1 = true /\ b32 s0 /\ b32 s1.
Lemma span_fin : forall s0 s1, okspan s0 s1 -> isfin s0 = true /\ isfin (rnd32 (fsub s1 s0)) = true /\ 0 <= B2R (rnd32 (fsub s1 s0)).
Proof.
  intros s0 s1 (L0 & L1 & F1 & B0 & B1). assert (bp := big_pos). apply fleb_spec in L0 as (_ & N0 & L0). apply fleb_spec in L1 as (_ & N1 & L1).
  simpl in L0. rewrite (key_fin s1) in L1 by auto. assert (X := fin_bound s1).
  assert (F0 : isfin s0 = true) by (apply fin_key; auto; lra). split; auto. rewrite key_fin in L0, L1 by auto.
  destruct (fsub_key s1 s0 F1 F0) as [Nd Kd].
  assert (D0 : fleb fzero (fsub s1 s0) = true). { apply fleb_spec. repeat split; auto. rewrite Kd. simpl. apply crnd_ge0. lra. }
  assert (D1 : fleb (fsub s1 s0) s1 = true). { apply fleb_spec. repeat split; auto. rewrite Kd, (key_fin s1) by auto. rewrite <- (crnd_B2R s1) at 2. apply crnd_mono. lra. }
  apply rnd32_mono in D0, D1. apply fleb_spec in D0 as (_ & Nm & D0). apply fleb_spec in D1 as (_ & _ & D1).
  assert (Z : key (rnd32 fzero) = 0) by reflexivity. rewrite Z in D0.
  apply feqb_spec in B1 as (_ & _ & B1). rewrite B1, (key_fin s1) in D1 by auto.
  assert (Fm : isfin (rnd32 (fsub s1 s0)) = true) by (apply fin_key; auto; lra). split; auto. now rewrite key_fin in D0.
Qed.
Lemma fSSE_mono : forall rd s0 s1 f1 f2, precision rd -> okspan s0 s1 -> isfin f1 = true -> isfin f2 = true -> fleb f1 f2 = true ->
  fleb (fSSE rd s0 s1 f1) (fSSE rd s0 s1 f2) = true.
Proof.
  intros rd s0 s1 f1 f2 P O F1 F2 L. destruct (span_fin _ _ O) as (F0 & Fm & M0). unfold fSSE. cbv zeta. set (mm := rnd32 (fsub s1 s0)) in *.
  apply rnd32_mono, rd_mono, fadd_mono, rd_mono; auto. destruct (fmul_key f1 mm F1 Fm) as [Na Ka]. destruct (fmul_key f2 mm F2 Fm) as [Nb Kb].
  apply fleb_spec. repeat split; auto. rewrite Ka, Kb. apply crnd_mono. apply fleb_spec in L as (_ & _ & L). rewrite !key_fin in L by auto. nra.
Qed.
Lemma fSSE_nan : forall rd s0 s1 f, precision rd -> okspan s0 s1 -> isfin f = true -> isnan (fSSE rd s0 s1 f) = false.
Proof. intros. assert (M := fSSE_mono rd s0 s1 f f H H0 H1 H1 (fleb_refl f (nan_fin _ H1))). now apply fleb_spec in M. Qed.
Lemma fSSE_0 : forall rd s0 s1, precision rd -> okspan s0 s1 -> key (fSSE rd s0 s1 fzero) = key s0.
Proof.
  intros rd s0 s1 P O. destruct (span_fin _ _ O) as (F0 & Fm & M0). unfold fSSE. cbv zeta. set (mm := rnd32 (fsub s1 s0)) in *.
  assert (Z : exists s, fmul fzero mm = B754_zero s). { destruct mm; try discriminate; simpl; eauto. }
  destruct Z as [s ->]. assert (Z2 : exists s', rd (B754_zero s) = B754_zero s'). { destruct P as [->| ->]; eauto. destruct s; eexists; reflexivity. }
  destruct Z2 as [s' ->]. destruct O as (O1 & O2 & O3 & O4 & O5). apply feqb_spec in O4 as (_ & N0 & O4).
  destruct (fadd_key s0 (B754_zero s') F0 eq_refl) as [Na Ka]. change (B2R (B754_zero s')) with 0 in Ka. rewrite Rplus_0_r, crnd_B2R in Ka.
  assert (E : key (rd (fadd s0 (B754_zero s'))) = B2R s0 /\ isnan (rd (fadd s0 (B754_zero s'))) = false).
  { split; [|rewrite rd_nan; auto]. destruct P as [->| ->]; auto.
    assert (E1 : fleb (fadd s0 (B754_zero s')) s0 = true) by (apply fleb_spec; repeat split; auto; rewrite Ka, key_fin; auto; lra).
    assert (E2 : fleb s0 (fadd s0 (B754_zero s')) = true) by (apply fleb_spec; repeat split; auto; rewrite Ka, key_fin; auto; lra).
    apply rnd32_mono in E1, E2. apply fleb_spec in E1 as (_ & _ & E1). apply fleb_spec in E2 as (_ & _ & E2). rewrite <- (key_fin s0) by auto. lra. }
  destruct E as [E EN].
  assert (E1 : fleb (rd (fadd s0 (B754_zero s'))) s0 = true) by (apply fleb_spec; repeat split; auto; rewrite E, key_fin; auto; lra).
  assert (E2 : fleb s0 (rd (fadd s0 (B754_zero s'))) = true) by (apply fleb_spec; repeat split; auto; rewrite E, key_fin; auto; lra).
  apply rnd32_mono in E1, E2. apply fleb_spec in E1 as (_ & _ & E1). apply fleb_spec in E2 as (_ & _ & E2). lra.
Qed.

Definition within (t1 t2 : f64) (sse : nat -> f64) (k : nat) : bool := fleb t1 (sse k) && fltb (sse k) t2.
Lemma filter_none : forall A (p : A -> bool) l, (forall x, In x l -> p x = false) -> filter p l = [].
Proof. induction l; simpl; intros; auto. rewrite H; auto. Qed.
Lemma filter_split : forall sse t1 t2 t3 K, fleb t1 t2 = true -> fleb t2 t3 = true ->
  StronglySorted (fun a b => fleb (sse a) (sse b) = true) K -> Forall (fun k => isnan (sse k) = false) K ->
  filter (within t1 t2 sse) K ++ filter (within t2 t3 sse) K = filter (within t1 t3 sse) K.
Proof.
  intros sse t1 t2 t3 K L1 L2. induction K as [|a K IH]; intros S N; auto. inversion S; subst. inversion N; subst.
  assert (N2 : isnan t2 = false) by (apply fleb_spec in L1; tauto).
  destruct (fltb (sse a) t2) eqn:E.
  - cbn [filter]. assert (A1 : within t2 t3 sse a = false). { unfold within. rewrite fltb_negb in E; auto. apply negb_true_iff in E. now rewrite E. }
    assert (A2 : within t1 t3 sse a = within t1 t2 sse a). { unfold within. now rewrite E, (fltb_fleb_trans _ _ _ E L2). }
    rewrite A1, A2. destruct (within t1 t2 sse a); simpl; now rewrite IH.
  - rewrite fltb_negb in E; auto. apply negb_false_iff in E.
    assert (G : forall x, In x (a :: K) -> fleb t2 (sse x) = true). { intros x [<-|I]; auto. rewrite Forall_forall in H2. eapply fleb_trans; eauto. }
    rewrite (filter_none _ (within t1 t2 sse) (a :: K)).
    + cbn [app]. apply filter_ext_in. intros x I. unfold within. rewrite (G x I), (fleb_trans _ _ _ L1 (G x I)). auto.
    + intros x I. unfold within. specialize (G x I). assert (isnan (sse x) = false) by (apply fleb_spec in G; tauto).
      rewrite (fltb_negb (sse x) t2); auto. rewrite G. apply andb_false_r.
Qed.

(** ** floors *)
Lemma ftrunc_val : forall x, ftrunc x = Ztrunc (B2R x).
Proof. intros. unfold ftrunc. assert (T := Btrunc_correct 53 1024 eq_refl x). rewrite round_FIX_IZR in T. now apply eq_IZR in T. Qed.
Lemma ifloor_nonneg : forall x, isfin x = true -> 0 <= B2R x -> ifloor x = Ok (Zfloor (B2R x)).
Proof.
  intros x F H. unfold ifloor, py_int. rewrite F. cbn [bind]. rewrite ftrunc_val, Ztrunc_floor by auto.
  destruct (fltb x (fofZ (Zfloor (B2R x)))) eqn:E; auto. exfalso. apply fltb_spec in E as (_ & _ & E).
  unfold fofZ in E. destruct (flit_key (Zfloor (B2R x)) 0) as [_ K]. rewrite K, key_fin in E by auto. simpl bpow in E. rewrite Rmult_1_r in E.
  assert (C := crnd_mono _ _ (Zfloor_lb (B2R x))). rewrite crnd_B2R in C. lra.
Qed.
Lemma mul_floor : forall (K : list nat) p q, (Z.of_nat (length K) < 2^53)%Z -> fleb fzero p = true -> fleb p q = true -> isfin q = true ->
  isfin (fmul q (fofZ (Z.of_nat (length K)))) = true ->
  isfin p = true /\ isfin (fmul p (fofZ (Z.of_nat (length K)))) = true /\ 0 <= B2R (fmul p (fofZ (Z.of_nat (length K)))) <= B2R (fmul q (fofZ (Z.of_nat (length K)))).
Proof.
  intros K p q L L0 L1 Fq F. destruct (fofZ_val (Z.of_nat (length K))) as [Fn Vn]; [lia|]. set (n := fofZ _) in *.
  assert (N0 : 0 <= B2R n) by (rewrite Vn; apply (IZR_le 0); lia). assert (bp := big_pos).
  apply fleb_spec in L0 as (_ & Np & L0). apply fleb_spec in L1 as (_ & _ & L1). simpl in L0. rewrite (key_fin q) in L1 by auto. assert (X := fin_bound q).
  assert (Fp : isfin p = true) by (apply fin_key; auto; lra). split; auto. rewrite key_fin in L0, L1 by auto.
  destruct (fmul_key p n Fp Fn) as [N1 K1]. destruct (fmul_key q n Fq Fn) as [N2 K2]. rewrite (key_fin _ F) in K2. assert (Y := fin_bound (fmul q n)).
  assert (M : crnd (B2R p * B2R n) <= crnd (B2R q * B2R n)) by (apply crnd_mono; nra). assert (M0 : 0 <= crnd (B2R p * B2R n)) by (apply crnd_ge0; nra).
  assert (F1 : isfin (fmul p n) = true) by (apply fin_key; auto; rewrite K1; lra). split; auto. rewrite key_fin in K1 by auto. lra.
Qed.
Lemma slice_nat : forall A (l : list A) a b, py_slice l (Z.of_nat a) (Z.of_nat b) = firstn (b - a) (skipn a l).
Proof.
  intros. unfold py_slice, clip_bound. destruct (Z.ltb_spec (Z.of_nat a) 0); [lia|]. destruct (Z.ltb_spec (Z.of_nat b) 0); [lia|].
  rewrite <- !Nat2Z.inj_min, !Nat2Z.id. destruct (Nat.le_gt_cases a (length l)).
  - rewrite (Nat.min_l a) by auto. destruct (Nat.le_gt_cases b (length l)); [now rewrite Nat.min_l|]. rewrite Nat.min_r by lia.
    rewrite !firstn_all2; auto; rewrite skipn_length; lia.
  - rewrite (Nat.min_r a) by lia. rewrite !skipn_all2 by lia. now rewrite !firstn_nil.
Qed.

(** * Properties C09-C12: ranking, push, sampling, choice of the challenge indices *)
From Coq Require Import List Bool Arith ZArith Reals Lia Permutation.
From Flocq Require Import Core BinarySingleNaN.
From Verif Require Import Flt FltMore Py RankModel SampFloat RankProofs ChalModel ChalProofs.
Import ListNotations.
Local Open Scope nat_scope.

(** Vocabulary (RankProofs.v): [ford x y]: x may stand before y in numpy's sort
    order (y is NaN, or x <= y); [is_argsort f]: f returns a sorted permutation
    of the positions; [legal_run]: no individual of the population has its SSE
    assigned in place other than by blacklist; [sampler]: the contract of
    random.sample; [rb_ok x]: 0 < x <= 1 - 2^-28. *)

(** a population as setup leaves it: no caches *)
Definition start (h : nat -> f64) (l : list nat) : rk := mkRk h l None None.

Theorem C09_ranking : forall argsort, is_argsort argsort -> forall h l os,
  l <> [] -> legal_run argsort (start h l) os ->
  let s := rrun argsort (start h l) os in
  let n := length l in
  length (iList s) = n /\
  exists K, snd (get_KS argsort s) = Some K /\
    Permutation K (seq 0 n) /\
    (forall a b ka kb ia ib, a < b -> nth_error K a = Some ka -> nth_error K b = Some kb ->
       nth_error (iList s) ka = Some ia -> nth_error (iList s) kb = Some ib -> ford (heap s ia) (heap s ib)) /\
    (exists L, snd (get_iSorted argsort s) = Ok (Some L) /\ length L = n /\
       forall a k, nth_error K a = Some k -> nth_error L a = nth_error (iList s) k) /\
    (exists kB b, snd (get_kBest argsort s) = Ok (Some kB) /\ nth_error K 0 = Some kB /\
       nth_error (iList s) kB = Some b /\ snd (get_best argsort s) = Ok (Some b) /\
       (forall j, In j (iList s) -> ford (heap s b) (heap s j)) /\
       ((exists j, In j (iList s) /\ isnan (heap s j) = false) -> isnan (heap s b) = false)).
Proof.
  intros argsort AS h l os NE LG s n.
  assert (Len : length (iList s) = n) by apply (rrun_length argsort os (start h l)).
  assert (I : RInv s) by (apply rrun_inv; auto; apply RInv_fresh).
  assert (NE' : iList s <> []). { intros X. rewrite X in Len. destruct l; [easy|]. discriminate Len. }
  split; auto.
  destruct (KS_ok argsort AS s I NE') as (K & s' & E & SS & I' & H1 & H2 & H3).
  exists K. rewrite E. split; [reflexivity|].
  assert (SS' := SS). destruct SS' as [S1 S2]. rewrite map_length, Len in S1. split; auto.
  split. { intros a b ka kb ia ib Hab Ha Hb Hia Hib. eapply S2; eauto; now apply map_nth_error. }
  split.
  - destruct (iSorted_ok argsort AS s I NE') as (K' & L & s2 & E2 & EK & SK & G & _). exists L. rewrite E2.
    assert (K' = K) by (rewrite E in EK; simpl in EK; congruence). subst K'.
    split; auto. split; [rewrite (gather_length _ _ _ G), (sorts_len _ _ SS), map_length; auto|].
    intros a k Ha. eapply gather_nth; eauto.
  - destruct (kBest_ok argsort AS s I NE') as (kB & s2 & b & E2 & Hb & B & _).
    exists kB, b. rewrite E2. split; auto.
    assert (HK : nth_error K 0 = Some kB).
    { unfold get_kBest in E2. rewrite E in E2. destruct K as [|k t]; [discriminate|]. injection E2 as _ ->. reflexivity. }
    split; auto. split; auto. split.
    + unfold get_best. rewrite E2. assert (H2' : iList s2 = iList s).
      { assert (X := get_KS_iList argsort s). unfold get_kBest in E2. rewrite E in E2, X. destruct K; [discriminate|]. injection E2 as -> _. exact X. }
      rewrite H2', Hb. destruct (iList s); [easy|reflexivity].
    + split; auto. intros (j & Hj & Nj). destruct (B j Hj) as [X|X]; [congruence|]. now apply fleb_nan in X.
Qed.
Print Assumptions C09_ranking.

(** the requirement on argsort is met by a stable insertion sort *)
Theorem C09_argsort_exists : is_argsort stable_argsort.
Proof. exact stable_is_argsort. Qed.
Print Assumptions C09_argsort_exists.

(** before setup there is nothing to rank *)
Theorem C09_empty : forall argsort h,
  snd (get_KS argsort (start h [])) = None /\ snd (get_iSorted argsort (start h [])) = Ok None /\
  snd (get_kBest argsort (start h [])) = Ok None /\ snd (get_best argsort (start h [])) = Ok None.
Proof. intros. repeat split. Qed.
Print Assumptions C09_empty.

(** giving a member a new SSE in place (its own evaluate, or SSE = x) leaves the ranking stale *)
Theorem C09_inplace_refuted : exists h l os b j,
  let s := rrun stable_argsort (start h l) os in
  snd (get_best stable_argsort s) = Ok (Some b) /\ In j (iList s) /\ fltb (heap s j) (heap s b) = true.
Proof.
  exists (fun n => fofZ (Z.of_nat n)), [1; 2], [RKS; RSSE 1 (fofZ 5)], 1, 2.
  vm_compute. auto.
Qed.
Print Assumptions C09_inplace_refuted.

Definition ex_h (n : nat) : f64 := match n with 1 => fofZ 3 | 2 => fnan | 3 => fofZ 1 | 4 => fofZ 3 | _ => fofZ 7 end.
Example C09_example : let s := rrun stable_argsort (start ex_h [1; 2; 3; 4]) [RKS; RSet 2 9; RiSorted; RBlacklist 1; RPush 3] in
  legal_run stable_argsort (start ex_h [1; 2; 3; 4]) [RKS; RSet 2 9; RiSorted; RBlacklist 1; RPush 3] /\
  iList s = [1; 3; 9; 4] /\ snd (get_KS stable_argsort s) = Some [1; 3; 2; 0] /\ snd (get_best stable_argsort s) = Ok (Some 3).
Proof. vm_compute. auto 10. Qed.

(** ** C10 *)
Theorem C10_push : forall argsort, is_argsort argsort -> forall h l os id,
  l <> [] -> legal_run argsort (start h l) os ->
  let s := rrun argsort (start h l) os in
  let (s', e) := push argsort s id in
  e = None /\ heap s' = heap s /\ length (iList s') = length (iList s) /\
  exists k w, nth_error (iList s) k = Some w /\ nth_error (iList s') k = Some id /\
    (forall j, j <> k -> nth_error (iList s') j = nth_error (iList s) j) /\
    (forall j, In j (iList s) -> ford (heap s j) (heap s w)).
Proof.
  intros argsort AS h l os id NE LG s.
  assert (Len : length (iList s) = length l) by apply (rrun_length argsort os (start h l)).
  assert (I : RInv s) by (apply rrun_inv; auto; apply RInv_fresh).
  assert (NE' : iList s <> []). { intros X. rewrite X in Len. destruct l; [easy|]. discriminate Len. }
  destruct (push_ok argsort AS s id I NE') as (k & w & E & Hw & B). rewrite E. simpl.
  split; auto. split; auto. split; [apply upd_length|]. exists k, w. split; auto.
  split; [apply upd_same; apply nth_error_Some; congruence|]. split; auto. intros j Nj. apply upd_other; auto.
Qed.
Print Assumptions C10_push.
Example C10_example : let s := rrun stable_argsort (start ex_h [1; 5; 3; 4]) [RKS] in
  iList (fst (push stable_argsort s 8)) = [1; 8; 3; 4] /\ snd (push stable_argsort s 8) = None /\ fltb (ex_h 1) (ex_h 5) = true.
Proof. vm_compute. auto. Qed.

(** ** C11 *)
(** the number of population indices not excluded *)
Definition n_avail (n : nat) (exclude : list nat) : nat := length (filter (fun k => negb (memb k exclude)) (seq 0 n)).
Lemma n_avail_eq : forall KS v ex, sorts KS v -> length (avail KS ex) = n_avail (length v) ex.
Proof.
  intros KS v ex [P _]. unfold avail, n_avail. apply Permutation_length.
  induction P; simpl; auto.
  - destruct (negb _); auto.
  - destruct (negb _), (negb _); auto. constructor.
  - etransitivity; eauto.
Qed.

(** reachable population *)
Definition reach (argsort : list f64 -> list nat) (s : rk) : Prop :=
  exists h l os, l <> [] /\ legal_run argsort (start h l) os /\ s = rrun argsort (start h l) os.
Lemma reach_inv : forall argsort s, is_argsort argsort -> reach argsort s -> RInv s /\ iList s <> [].
Proof.
  intros argsort s AS (h & l & os & NE & LG & ->). split.
  - apply rrun_inv; auto. apply RInv_fresh.
  - intros X. assert (Len := rrun_length argsort os (start h l)). rewrite X in Len. destruct l; [easy|discriminate].
Qed.

Theorem C11_uniform : forall argsort, is_argsort argsort -> forall s, reach argsort s -> forall N exclude rb pick ds,
  rb = RBool true \/ (exists x, rb = RFloat x /\ feqb x fone = true) -> sampler pick ->
  let n := length (iList s) in
  (N <= n_avail n exclude -> exists l, snd (sample argsort s N exclude rb pick ds) = SOk l /\
     length l = N /\ NoDup l /\ forall k, In k l -> k < n /\ ~ In k exclude) /\
  (n_avail n exclude < N -> snd (sample argsort s N exclude rb pick ds) = SRaise ValueError).
Proof.
  intros argsort AS s RE N ex rb pick ds R P n. destruct (reach_inv argsort s AS RE) as [I NE].
  destruct (sample_eq argsort AS s N ex rb pick ds I NE) as (KS & s' & SS & _ & _ & _ & _ & E). rewrite E. cbn [snd].
  assert (LA : length (avail KS ex) = n_avail n ex) by (rewrite (n_avail_eq KS _ ex SS), map_length; reflexivity).
  assert (U : rb_unif rb) by (destruct R as [->|(x & -> & H)]; simpl; auto).
  assert (B : ~ rb_best rb).
  { destruct R as [->|(x & -> & H)]; simpl; [discriminate|]. intros H'. apply feqb_spec in H, H'. rewrite key_fone in H. rewrite key_fzero in H'. Lra.lra. }
  split; intros L.
  - destruct (sample_unif_ok KS ex N rb pick ds (sorts_nodup _ _ SS) U B P) as (l & E1 & E2 & E3 & E4); [lia|].
    exists l. repeat split; auto; apply E4, avail_in in H; [|tauto]. eapply sorts_range; eauto; tauto.
  - assert (X : (length (avail KS ex) <? N) = true) by (apply Nat.ltb_lt; lia).
    unfold sample_result. destruct R as [->|(x & -> & H)]; rewrite ?H, X; auto. unfold rb_best in B. destruct (feqb x fzero); [easy|reflexivity].
Qed.
Print Assumptions C11_uniform.

Theorem C11_best : forall argsort, is_argsort argsort -> forall s, reach argsort s -> forall N exclude rb pick ds,
  rb = RBool false \/ (exists x, rb = RFloat x /\ feqb x fzero = true) ->
  let n := length (iList s) in
  (1 < N -> snd (sample argsort s N exclude rb pick ds) = SRaise ValueError) /\
  (0 < n_avail n exclude -> exists k, snd (sample argsort s 1 exclude rb pick ds) = SOk [k] /\ k < n /\ ~ In k exclude /\
     forall j i i', j < n -> ~ In j exclude -> nth_error (iList s) k = Some i -> nth_error (iList s) j = Some i' -> ford (heap s i) (heap s i')).
Proof.
  intros argsort AS s RE N ex rb pick ds R n. destruct (reach_inv argsort s AS RE) as [I NE].
  assert (B : rb_best rb) by (destruct R as [->|(x & -> & H)]; simpl; auto). split.
  - intros L. destruct (sample_eq argsort AS s N ex rb pick ds I NE) as (KS & s' & SS & _ & _ & _ & _ & E). rewrite E. cbn [snd].
    apply Nat.ltb_lt in L. unfold sample_result. destruct R as [->|(x & -> & H)]; rewrite ?H, L; auto.
  - intros L. destruct (sample_eq argsort AS s 1 ex rb pick ds I NE) as (KS & s' & SS & _ & _ & _ & _ & E). rewrite E. cbn [snd].
    rewrite sample_best by auto. unfold n in L. rewrite <- (map_length (heap s)), <- (n_avail_eq KS _ ex SS) in L.
    destruct (avail KS ex) as [|k t] eqn:EA; [simpl in L; lia|]. exists k. split; auto. exact (avail_head s KS ex k t SS EA).
Qed.
Print Assumptions C11_best.

(** probability sampling: whatever the draws, no exception; if it returns, the result is right *)
Theorem C11_probability : forall argsort, is_argsort argsort -> forall s, reach argsort s -> forall N exclude x pick ds,
  rb_ok x -> Forall (fun d => unit_draw (fst d) /\ unit_draw (snd d)) ds ->
  let n := length (iList s) in
  (Z.of_nat n < 2^53)%Z -> 0 < n_avail n exclude ->
  match snd (sample argsort s N exclude (RFloat x) pick ds) with
  | SOk l => length l = N /\ NoDup l /\ forall k, In k l -> k < n /\ ~ In k exclude
  | SRaise _ => False
  | SLoop => True
  end /\
  (N = 1 -> ds <> [] -> exists k, snd (sample argsort s N exclude (RFloat x) pick ds) = SOk [k]).
Proof.
  intros argsort AS s RE N ex x pick ds R D n Lt L. destruct (reach_inv argsort s AS RE) as [I NE].
  destruct (sample_eq argsort AS s N ex (RFloat x) pick ds I NE) as (KS & s' & SS & _ & _ & _ & _ & E). rewrite E. cbn [snd].
  assert (LA : length (avail KS ex) = n_avail n ex) by (rewrite (n_avail_eq KS _ ex SS), map_length; reflexivity).
  assert (NA : avail KS ex <> []) by (intros X; rewrite X in LA; simpl in LA; lia).
  assert (LL : (Z.of_nat (length (avail KS ex)) < 2^53)%Z).
  { assert (length (avail KS ex) <= length KS) by (unfold avail; rewrite <- (filter_len (fun k => negb (memb k ex)) KS); lia).
    assert (length KS = length (iList s)) by (rewrite (sorts_len _ _ SS); apply map_length). unfold n in *. lia. }
  assert (B0 : ~ rb_best (RFloat x)).
  { simpl. intros X. apply feqb_spec in X. destruct R as [R _]. apply fltb_spec in R. rewrite key_fzero in *. Lra.lra. }
  assert (B1 : ~ rb_unif (RFloat x)).
  { simpl. intros X. destruct R as [_ R]. apply feqb_spec in X. destruct X as (X1 & X2 & X3). apply fleb_spec in R. destruct R as (_ & _ & R).
    assert (Y : fltb (flit (2^28-1) (-28)) fone = true) by (vm_compute; reflexivity). apply fltb_spec in Y. Lra.lra. }
  rewrite rb_float_sample by (auto using rb_ok_le1). split.
  - destruct (sample_loop (avail KS ex) N x ds []) as [l|e|] eqn:El; auto.
    + destruct (sample_loop_ok (avail KS ex) N x ds [] l) as (L1 & L2 & L3); auto; try easy; try lia.
      * constructor.
      * simpl; lia.
      * intros; eapply ps_call_in; eauto.
      * repeat split; auto; apply L2, avail_in in H; [|tauto]. eapply sorts_range; eauto; tauto.
    + now apply sample_loop_noraise in El.
  - intros -> ND. destruct (sample_loop_one (avail KS ex) x ds R NA LL D ND) as (k & Ek & _). eauto.
Qed.
Print Assumptions C11_probability.

(** asking for more than there are by probability sampling never returns *)
Theorem C11_probability_too_many : forall argsort, is_argsort argsort -> forall s, reach argsort s -> forall N exclude x pick ds,
  rb_ok x -> Forall (fun d => unit_draw (fst d) /\ unit_draw (snd d)) ds ->
  let n := length (iList s) in
  (Z.of_nat n < 2^53)%Z -> 0 < n_avail n exclude < N ->
  snd (sample argsort s N exclude (RFloat x) pick ds) = SLoop.
Proof.
  intros argsort AS s RE N ex x pick ds R D n Lt [L1 L2].
  destruct (C11_probability argsort AS s RE N ex x pick ds R D Lt L1) as [H _].
  destruct (snd (sample argsort s N ex (RFloat x) pick ds)) as [l|e|]; auto; try easy. exfalso.
  destruct H as (H1 & H2 & H3). assert (length l <= n_avail n ex); [|lia].
  apply NoDup_incl_length; auto. intros k Hk. apply filter_In. destruct (H3 k Hk) as [A B]. split; [apply in_seq; lia|].
  apply negb_true_iff. destruct (memb k ex) eqn:E; auto. now apply memb_spec in E.
Qed.
Print Assumptions C11_probability_too_many.

Theorem C11_above_one_rejected : forall argsort, is_argsort argsort -> forall s, reach argsort s -> forall N exclude x pick ds,
  fltb fone x = true -> snd (sample argsort s N exclude (RFloat x) pick ds) = SRaise ValueError.
Proof.
  intros argsort AS s RE N ex x pick ds L. destruct (reach_inv argsort s AS RE) as [I NE].
  destruct (sample_eq argsort AS s N ex (RFloat x) pick ds I NE) as (KS & s' & SS & _ & _ & _ & _ & E). rewrite E. cbn [snd].
  unfold sample_result. apply fltb_spec in L. destruct L as (_ & Nx & L). assert (K1 := key_fone). rewrite K1 in L.
  destruct (feqb x fzero) eqn:E0. { apply feqb_spec in E0. rewrite key_fzero in E0. Lra.lra. }
  destruct (feqb x fone) eqn:E1. { apply feqb_spec in E1. rewrite K1 in E1. Lra.lra. }
  replace (fltb fone x) with true; auto. symmetry. apply fltb_spec. rewrite K1. split; [reflexivity|auto].
Qed.
Print Assumptions C11_above_one_rejected.

Lemma sqrt_not_negative (z : f64) : isnan (fsqrt z) = true \/ Bsign (fsqrt z) = false \/ fsqrt z = B754_zero true.
Proof.
  destruct (Bsqrt_correct 53 1024 _ _ mode_NE z) as (_ & _ & H). fold (fsqrt z) in H.
  destruct z as [[]|[]| |[]]; auto.
  destruct (isnan (fsqrt (B754_finite false m e e0))) eqn:N; [auto|]. right. left. exact (H N).
Qed.
(** a NaN or minus infinity is not rejected as such, but taking the integer of the variate raises *)
Theorem C11_not_finite : forall argsort, is_argsort argsort -> forall s, reach argsort s -> forall N exclude x pick u1 u2 ds,
  1 <= N -> isfin x = false -> fltb fone x = false -> unit_draw u1 ->
  snd (sample argsort s N exclude (RFloat x) pick ((u1, u2) :: ds)) = SRaise ValueError.
Proof.
  intros argsort AS s RE N ex x pick u1 u2 ds L NF L1 U1. destruct (reach_inv argsort s AS RE) as [I NE].
  destruct (sample_eq argsort AS s N ex (RFloat x) pick ((u1, u2) :: ds) I NE) as (KS & s' & SS & _ & _ & _ & _ & E). rewrite E. cbn [snd].
  unfold sample_result. rewrite L1.
  assert (E0 : feqb x fzero = false) by (destruct x as [[]|[]| |]; try discriminate; reflexivity).
  assert (E1 : feqb x fone = false) by (destruct x as [[]|[]| |]; try discriminate; reflexivity).
  rewrite E0, E1. cbn [sample_loop length]. destruct (Nat.leb_spec N 0); [lia|].
  assert (V : isnan (ps_variate x u1 u2) = true).
  { unfold ps_variate. destruct x as [[]|[]| |]; try discriminate; [|reflexivity].
    replace (fltb f_half (B754_infinity true)) with false by reflexivity. replace (fmul (fofZ 2) (B754_infinity true)) with (B754_infinity true : f64) by reflexivity.
    unfold triangular0. replace (feqb (B754_infinity true) fzero) with false by reflexivity.
    replace (fdiv (fsub fzero fzero) (fsub (B754_infinity true) fzero)) with (B754_zero true : f64) by reflexivity. cbv iota zeta.
    destruct (fltb (B754_zero true) u1) eqn:C.
    - replace (fsub fzero (B754_infinity true)) with (B754_infinity false : f64) by reflexivity.
      destruct (sqrt_not_negative (fmul (fsub fone u1) (fsub fone (B754_zero true)))) as [G|[G|G]]; destruct (fsqrt (fmul (fsub fone u1) (fsub fone (B754_zero true)))) as [[]|[]| |[]]; try discriminate; reflexivity.
    - replace (fsub (B754_infinity true) fzero) with (B754_infinity true : f64) by reflexivity.
      assert (Z : exists b, u1 = B754_zero b).
      { destruct (unit_draw_real u1 U1) as [Fu [U0 _]]. destruct u1 as [b| | |b m e Hb]; try discriminate; [now exists b|]. exfalso.
        destruct b; [|discriminate]. revert U0. apply Rlt_not_le. apply (F2R_lt_0 radix2 (Float radix2 (Zneg m) e)). reflexivity. }
      destruct Z as [b ->]. destruct b; reflexivity. }
  unfold ps_call. set (y := fmul (ps_variate x u1 u2) _).
  assert (Y : y = fnan). { unfold y. destruct (ps_variate x u1 u2); try discriminate. destruct (fofZ _); reflexivity. }
  rewrite Y. reflexivity.
Qed.
Print Assumptions C11_not_finite.
(** far below zero the integer may overflow instead *)
Theorem C11_huge_negative_refuted : exists x u K, isfin x = true /\ fltb x fzero = true /\ unit_draw u /\ length K = 4 /\ ps_call K x u u = Raise OverflowError.
Proof. exists (flit (-1) 1022), (flit 3 (-2)), [10; 11; 12; 13]. repeat split; vm_compute; reflexivity. Qed.
Print Assumptions C11_huge_negative_refuted.
(** very close to 1 (here 1 - 2^-53) the index can run off the end of the list:
    the largest draw in the triangular part gives 1.0 *)
Theorem C11_near_one_refuted : exists x u1 u2 K, fltb x fone = true /\ fltb f_half x = true /\ unit_draw u1 /\ unit_draw u2 /\
  K <> [] /\ ps_call K x u1 u2 = Raise IndexError.
Proof.
  exists (flit (2^53 - 1) (-53)), fzero, (flit (2^53 - 1) (-53)), [0; 1; 2].
  repeat split; try (vm_compute; reflexivity). discriminate.
Qed.
Print Assumptions C11_near_one_refuted.
(** a negative setting is not rejected and picks from the wrong end *)
Theorem C11_negative_refuted : exists x u K, fltb x fzero = true /\ unit_draw u /\ K = [10; 11; 12; 13] /\ ps_call K x u u = Ok 13.
Proof.
  exists (flit (-1) (-1)), (flit 1 (-1)), [10; 11; 12; 13]. repeat split; vm_compute; reflexivity.
Qed.
Print Assumptions C11_negative_refuted.

Definition ex_pick (n N : nat) : list nat := seq (n - N) N.
Lemma ex_pick_ok : sampler ex_pick.
Proof.
  intros n N L. unfold ex_pick. split; [apply seq_length|]. split; [apply seq_NoDup|]. intros k Hk. apply in_seq in Hk. lia.
Qed.
Definition ex_s : rk := start ex_h [1; 2; 3; 4; 5].
Definition ex_u : f64 := flit 3 (-2).
Example C11_example : reach stable_argsort ex_s /\ rb_ok (flit 3 (-2)) /\ unit_draw ex_u /\
  n_avail 5 [2; 0] = 3 /\
  snd (sample stable_argsort ex_s 2 [2; 0] (RBool true) ex_pick []) = SOk [4; 1] /\
  snd (sample stable_argsort ex_s 1 [2] (RBool false) ex_pick []) = SOk [0] /\
  snd (sample stable_argsort ex_s 2 [2] (RFloat (flit 3 (-2))) ex_pick [(ex_u, ex_u); (ex_u, ex_u); (ex_u, fzero)]) = SOk [3; 0] /\
  snd (sample stable_argsort ex_s 4 [2; 0] (RBool true) ex_pick []) = SRaise ValueError.
Proof.
  split. { exists ex_h, [1; 2; 3; 4; 5], []. split; [discriminate|]. split; [exact Logic.I|reflexivity]. }
  repeat split; vm_compute; reflexivity.
Qed.

(** ** C12 *)
Theorem C12_challenge_indices : forall argsort, is_argsort argsort -> forall s, reach argsort s -> forall target rb pick1 ds pick2,
  let n := length (iList s) in
  4 <= n -> (Z.of_nat n < 2^53)%Z -> target < n -> rbase_ok rb -> sampler pick1 -> sampler pick2 ->
  Forall (fun d => unit_draw (fst d) /\ unit_draw (snd d)) ds -> ds <> [] ->
  exists base k0 k1, snd (choose_quad argsort s target rb pick1 ds pick2) = SOk [target; base; k0; k1] /\
    target <> base /\ target <> k0 /\ target <> k1 /\ base <> k0 /\ base <> k1 /\ k0 <> k1 /\
    base < n /\ k0 < n /\ k1 < n /\
    okquad n (mkQuad target base k0 k1) = true /\
    (rb_best rb ->
      (forall j i i', j < n -> j <> target -> nth_error (iList s) base = Some i -> nth_error (iList s) j = Some i' -> ford (heap s i) (heap s i')) /\
      (forall kB, snd (get_kBest argsort s) = Ok (Some kB) -> kB <> target -> base = kB)).
Proof.
  intros argsort AS s RE t rb p1 ds p2 n L4 Lt Ht R P1 P2 D ND. destruct (reach_inv argsort s AS RE) as [I NE].
  destruct (choose_quad_ok argsort AS s t rb p1 ds p2 I L4 Ht R P1 P2 D ND Lt) as (s' & kb & k0 & k1 & E & _ & _ & _ & N & V & B).
  exists kb, k0, k1. rewrite E. split; [reflexivity|].
  assert (OK : okquad n (mkQuad t kb k0 k1) = true) by (apply okquad_spec; split; auto).
  inversion N as [|? ? N1 N2]; subst. inversion N2 as [|? ? N3 N4]; subst. inversion N4 as [|? ? N5 N6]; subst. simpl in *.
  repeat split; auto; try (apply B; auto; fail); try (apply V; auto 10; fail); try (intuition congruence); apply B; auto.
Qed.
Print Assumptions C12_challenge_indices.
Example C12_example : snd (choose_quad stable_argsort ex_s 2 (RBool false) ex_pick [(ex_u, ex_u)] ex_pick) = SOk [2; 0; 4; 1] /\
  snd (choose_quad stable_argsort ex_s 0 (RBool false) ex_pick [(ex_u, ex_u)] ex_pick) = SOk [0; 2; 4; 1] /\
  snd (choose_quad stable_argsort ex_s 0 (RFloat (flit 3 (-2))) ex_pick [(ex_u, ex_u)] ex_pick) = SOk [0; 3; 4; 1].
Proof. vm_compute. auto. Qed.
(** with three members there are not enough indices: random.sample raises *)
Theorem C12_three_members_refuted : snd (choose_quad stable_argsort (start ex_h [1; 2; 3]) 0 (RBool true) ex_pick [] ex_pick) = SRaise ValueError.
Proof. vm_compute. reflexivity. Qed.
Print Assumptions C12_three_members_refuted.

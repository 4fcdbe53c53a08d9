(** * Property C106: what the adaptation in a whole run depends on *)
From Coq Require Import List Bool Arith ZArith Lia Reals Lra Permutation.
From Flocq Require Import Core BinarySingleNaN.
From Verif Require Import Flt FltMore Py IndivModel FManModel FManProps RunModel ChalModel ChalProofs ChalSerial ChalLive ChalProps LoopModel LoopProofs LoopProps ScoreProofs AdaptModel AdaptProofs.
Import ListNotations.
Local Open Scope nat_scope.

(** ** Vocabulary *)
Section Vocabulary.
Context {I : Type}.
Variable ev : nat -> I -> I -> option I.
Variable better : I -> I -> bool.
Variable rir : I -> I -> option Z.
(** the reports - evaluated challenger and the target it is compared with - of the
    challenges [qs], started with number [c], performed one after the other *)
Fixpoint seq_reports (mk : nat -> I -> I -> I -> I -> mkres I) (c : nat) (qs : list quad) (p : list I) : list (I * I) :=
  match qs with
  | [] => []
  | q :: qs =>
    match nth_error p (kt q), nth_error p (kb q), nth_error p (k0 q), nth_error p (k1 q) with
    | Some it, Some ib, Some i0, Some i1 =>
      match mk c it ib i0 i1 with
      | Candidate ch => match ev c it ch with Some r => [(r, it)] | None => [] end
      | _ => []
      end
    | _, _, _, _ => []
    end ++ seq_reports mk (S c) qs (seq_step mk ev better c q p)
  end.
(** the ratios of a list of reports *)
Definition ratios_of (l : list (I * I)) : list Z := flat_map (fun x => match rir (fst x) (snd x) with Some z => [z] | None => [] end) l.
(** better than the best individual known, or the first *)
Definition beats (b : option I) (r : I) : bool := match b with None => true | Some b => better r b end.
(** the reports, in this order, each of which is better than [b] and all before it *)
Fixpoint records (b : option I) (l : list (I * I)) : list I :=
  match l with
  | [] => []
  | (r, _) :: l => if beats b r then r :: records (Some r) l else records b l
  end.
(** the ratios passed to the population for these reports: those of the reports
    and a one for each record *)
Definition score_calls (b : option I) (l : list (I * I)) : list Z := calls better rir b l.
(** at most one report beats [b], and all ratios lie between 1 and 2^40 *)
Definition calm (b : option I) (l : list (I * I)) : Prop :=
  length (filter (fun x => beats b (fst x)) l) <= 1 /\
  (forall r it z, In (r, it) l -> rir r it = Some z -> (1 <= z <= 2 ^ 40)%Z).
End Vocabulary.
(** challenges of generation [g] among all, each generation having [n] *)
Definition gen_reqs (n g : nat) (qs : list quad) : list quad := firstn n (skipn (g * n) qs).

(** ** the score is a sum *)
(** twice the sum of the additions *)
Definition sumz (l : list Z) : Z := fold_right (fun z a => (2 * z - 1 + a)%Z) 0%Z l.
Lemma sumz_perm : forall l l', Permutation l l' -> sumz l = sumz l'.
Proof. induction 1; simpl; lia. Qed.
Definition small (l : list Z) : Prop := forall z, In z l -> (1 <= z <= 2 ^ 40)%Z.
Lemma sumz_bound : forall l, small l -> (0 <= sumz l <= Z.of_nat (length l) * (2 ^ 41 - 1))%Z.
Proof.
  induction l as [|z l IH]; intros H; [simpl; lia|].
  assert (X := IH (fun z Hz => H z (or_intror Hz))). assert (Y := H z (or_introl eq_refl)).
  cbn [sumz fold_right length]. fold (sumz l). rewrite Nat2Z.inj_succ. lia.
Qed.
Lemma half_fin : forall x n, isnan x = false -> (Z.abs n < 2 ^ 53)%Z -> key x = crnd (IZR n / 2) -> isfin x = true /\ (B2R x = IZR n / 2)%R.
Proof.
  intros x n Hn Hb Hk. destruct (flit_val n (-1) Hb ltac:(lia)) as [F V].
  assert (E : (IZR n / 2 = B2R (flit n (-1)))%R) by (rewrite V; simpl; lra). rewrite E in *. rewrite crnd_B2R in Hk.
  assert (F' : isfin x = true) by (apply fin_key; auto; rewrite Hk; apply fin_bound).
  split; auto. now rewrite <- key_fin.
Qed.
Lemma addition_val : forall z, (1 <= z <= 2 ^ 40)%Z -> isfin (addition z) = true /\ (B2R (addition z) = IZR (2 * z - 1) / 2)%R.
Proof.
  intros z H. unfold addition. destruct (Z.eqb_spec z 0); [lia|].
  destruct (fofZ_val z ltac:(lia)) as [F1 V1]. destruct (flit_val 1 (-1) ltac:(reflexivity) ltac:(lia)) as [F2 V2].
  destruct (fsub_key (fofZ z) h_half F1 F2) as [N K]. apply half_fin; auto; [lia|]. rewrite K, V1. unfold h_half. rewrite V2.
  f_equal. rewrite minus_IZR, mult_IZR. simpl. lra.
Qed.
Lemma score_val : forall q l x n, isfin x = true -> (B2R x = IZR n / 2)%R -> (0 <= n)%Z -> small l -> (n + sumz l < 2 ^ 53)%Z ->
  exists y, rcalls (fun x => x) (mkScore (Some x) q) (map CRir l) = mkScore (Some y) q /\ isfin y = true /\ (B2R y = IZR (n + sumz l) / 2)%R.
Proof.
  intros q. induction l as [|z l IH]; intros x n Fx Vx Hn Hs Hb.
  - exists x. simpl. now rewrite Z.add_0_r.
  - destruct (addition_val z (Hs z (or_introl eq_refl))) as [Fa Va].
    assert (Y := Hs z (or_introl eq_refl)). cbn [sumz fold_right] in *. fold (sumz l) in *.
    assert (S0 := sumz_bound l (fun z Hz => Hs z (or_intror Hz))).
    destruct (fadd_key x (addition z) Fx Fa) as [N K].
    destruct (half_fin (fadd x (addition z)) (n + (2 * z - 1)) N ltac:(lia)) as [F V].
    { rewrite K, Vx, Va. f_equal. rewrite plus_IZR. lra. }
    destruct (IH (fadd x (addition z)) (n + (2 * z - 1))%Z F V ltac:(lia) (fun z Hz => Hs z (or_intror Hz)) ltac:(lia)) as (y & A & B & C).
    exists y. split; [exact A|]. split; auto. rewrite C. f_equal. f_equal. lia.
Qed.
Lemma rcalls_npsin : forall s1 s2 l s, rcalls s1 s (map CRir l) = rcalls s2 s (map CRir l).
Proof. intros s1 s2. induction l as [|z l IH]; intros s; auto. cbn [map rcalls]. rewrite IH. reflexivity. Qed.
Lemma rcalls_none : forall s1 q l, rcalls s1 (mkScore None q) (map CRir l) = mkScore None q.
Proof. intros s1 q. induction l as [|z l IH]; auto. Qed.
Definition fresh (s : score) : Prop := rscore s = None \/ rscore s = Some fzero.
Lemma score_perm : forall npsin s l l', fresh s -> Permutation l l' -> small l -> length l <= 4096 ->
  rcalls npsin s (map CRir l) = rcalls npsin s (map CRir l').
Proof.
  intros npsin s l l' Fr Pm Hs Hl. destruct s as [rs q]. destruct Fr as [E|E]; simpl in E; subst rs; [now rewrite !rcalls_none|].
  destruct l as [|z l]; [apply Permutation_nil in Pm; now subst|].
  assert (Hs' : small l') by (intros x Hx; apply Hs; eapply Permutation_in; [apply Permutation_sym; exact Pm|exact Hx]).
  assert (B := sumz_bound _ Hs). assert (L' := Permutation_length Pm).
  assert (P1 : (0 < sumz (z :: l))%Z).
  { assert (Y := Hs z (or_introl eq_refl)). assert (X := sumz_bound l (fun z Hz => Hs z (or_intror Hz))). cbn [sumz fold_right]. fold (sumz l). lia. }
  assert (Hb : (0 + sumz (z :: l) < 2 ^ 53)%Z).
  { assert (Z.of_nat (length (z :: l)) <= 4096)%Z by lia.
    assert (Z.of_nat (length (z :: l)) * (2 ^ 41 - 1) <= 4096 * (2 ^ 41 - 1))%Z by (apply Z.mul_le_mono_nonneg_r; lia). lia. }
  assert (Z0 : (B2R fzero = IZR 0 / 2)%R) by (simpl; lra).
  destruct (score_val q (z :: l) fzero 0 eq_refl Z0 ltac:(lia) Hs Hb) as (y & A1 & A2 & A3).
  assert (Hb' := Hb). rewrite (sumz_perm _ _ Pm) in Hb'.
  destruct (score_val q l' fzero 0 eq_refl Z0 ltac:(lia) Hs' Hb') as (y' & B1 & B2 & B3).
  rewrite (rcalls_npsin npsin (fun x => x)), A1, (rcalls_npsin npsin (fun x => x)), B1. f_equal. f_equal.
  apply key_inj; auto using nan_fin; rewrite !key_fin by auto.
  - rewrite A3, B3. now rewrite (sumz_perm _ _ Pm).
  - rewrite A3. apply not_eq_sym, Rlt_not_eq. apply IZR_lt in P1. rewrite Z.add_0_l. lra.
Qed.

Section Generic.
Context {I : Type}.
Variable mkF : fman -> nat -> I -> I -> I -> I -> mkres I.
Variable ev : nat -> I -> I -> option I.
Variable better : I -> I -> bool.
Variable histcrash : nat -> bool.
Variable xSSE : bool.
Variable rir : I -> I -> option Z.
Variable npsin : f64 -> f64.
Variables up0 up1 : f64.
Variable o : opts.
Variable p0 : list I.
Variables (fm : fman) (sc : score) (b0 : option I).
Notation N := (length p0).
Notation aexec := (aexec mkF ev better histcrash xSSE rir npsin up0 up1 o).
Notation lexec mk := (lexec mk ev better histcrash xSSE npsin up0 up1 o).
Notation start := (ainit o p0 fm sc b0).
Notation generation := (generation npsin up0 up1 o).
Notation seq_reports := (seq_reports ev better).
Notation seq_run mk := (seq_run mk ev better).
Notation score_calls := (score_calls better rir).
Notation beats := (beats better).
Notation mkf := (mkf mkF p0).

(** *** bonuses *)
Lemma calls_records : forall l b, Permutation (score_calls b l) (repeat 1%Z (length (records better b l)) ++ ratios_of rir l).
Proof.
  unfold AdaptProps.score_calls, ratios_of. induction l as [|[r it] l IH]; intros b; cbn [calls flat_map records]; [apply Permutation_refl|].
  unfold ratios, AdaptModel.new_best. change (match b with None => true | Some b => better r b end) with (beats b r). destruct (beats b r); simpl.
  - apply perm_skip. rewrite IH. rewrite !app_assoc. apply Permutation_app_tail. apply Permutation_app_comm.
  - rewrite IH. rewrite !app_assoc. apply Permutation_app_tail. apply Permutation_app_comm.
Qed.
Definition trans : Prop := forall x y z, better x y = true -> better y z = true -> better x z = true.
Lemma records_le : forall l b, trans -> length (records better b l) <= length (filter (fun x => beats b (fst x)) l).
Proof.
  intros l b T. revert b. induction l as [|[r it] l IH]; intros b; cbn [records filter fst]; auto.
  destruct (beats b r) eqn:E; cbn [length]; auto. apply le_n_S. etransitivity; [apply IH|].
  clear IH. induction l as [|[r' it'] l IH]; cbn [filter fst]; auto.
  change (beats (Some r) r') with (better r' r). destruct (better r' r) eqn:E2.
  - assert (X : beats b r' = true) by (destruct b as [b|]; simpl in *; auto; eapply T; eauto). rewrite X. cbn [length]. lia.
  - destruct (beats b r'); cbn [length]; lia.
Qed.
Lemma records_nil : forall l b, records better b l = [] <-> filter (fun x => beats b (fst x)) l = [].
Proof.
  induction l as [|[r it] l IH]; intros b; cbn [records filter fst]; [tauto|]. destruct (beats b r); [split; discriminate|auto].
Qed.
Lemma after_records : forall l b, after better b l = match records better b l with [] => b | r :: rs => Some (last rs r) end.
Proof.
  induction l as [|[r it] l IH]; intros b; cbn [after records]; auto. unfold AdaptModel.new_best.
  change (match b with None => true | Some b => better r b end) with (beats b r). destruct (beats b r); auto.
  rewrite IH. destruct (records better (Some r) l) as [|r' l']; auto. f_equal. clear. revert r r'. induction l' as [|x l' IH]; intros r r'; auto.
  change (last (r' :: x :: l') r) with (last (x :: l') r). rewrite <- (IH r x). destruct l'; auto.
Qed.
Lemma records_in : forall l b r, In r (records better b l) -> exists it, In (r, it) l.
Proof.
  induction l as [|[r0 it] l IH]; intros b r; cbn [records]; [contradiction|]. destruct (beats b r0).
  - intros [->|H]; [exists it; now left|]. destruct (IH _ _ H) as [it' X]. exists it'. now right.
  - intros H. destruct (IH _ _ H) as [it' X]. exists it'. now right.
Qed.
Lemma filter_perm : forall {X} (f : X -> bool) l l', Permutation l l' -> Permutation (filter f l) (filter f l').
Proof.
  intros X f l l' H. induction H; simpl; auto.
  - destruct (f x); auto.
  - destruct (f x), (f y); auto. constructor.
  - eapply Permutation_trans; eauto.
Qed.
Lemma sole_records : forall m b, trans -> length (filter (fun x => beats b (fst x)) m) <= 1 ->
  records better b m = map fst (filter (fun x => beats b (fst x)) m).
Proof.
  induction m as [|[r it] m IH]; intros b T H; cbn [records filter fst] in *; auto.
  destruct (beats b r) eqn:E; [|auto]. simpl in H |- *. f_equal.
  assert (Z : filter (fun x => beats b (fst x)) m = []) by (destruct (filter _ m); auto; simpl in H; lia). rewrite Z. simpl.
  apply records_nil. clear H IH. induction m as [|[r' it'] m IH]; cbn [filter fst] in *; auto.
  destruct (beats b r') eqn:E2; [discriminate|]. change (beats (Some r) r') with (better r' r). destruct (better r' r) eqn:E3; auto.
  exfalso. destruct b as [b|]; simpl in *; [|discriminate]. rewrite (T _ _ _ E3 E) in E2. discriminate.
Qed.
(** with at most one record possible, order does not matter *)
Lemma calm_perm : forall b l l', trans -> Permutation l l' -> calm better rir b l ->
  Permutation (score_calls b l) (score_calls b l') /\ after better b l = after better b l'.
Proof.
  intros b l l' T Pm [C1 _].
  assert (F := filter_perm (fun x => beats b (fst x)) _ _ Pm). assert (FL := Permutation_length F).
  assert (R : records better b l = map fst (filter (fun x => beats b (fst x)) l) /\ records better b l' = map fst (filter (fun x => beats b (fst x)) l')).
  { split; apply sole_records; auto; lia. }
  destruct R as [R1 R2].
  assert (EQ : filter (fun x => beats b (fst x)) l = filter (fun x => beats b (fst x)) l').
  { destruct (filter _ l) as [|x [|y m]] eqn:E1; [|apply Permutation_length_1_inv in F; congruence|simpl in C1; lia].
    apply Permutation_nil in F. congruence. }
  split.
  - eapply Permutation_trans; [apply calls_records|]. eapply Permutation_trans; [|apply Permutation_sym, calls_records].
    rewrite R1, R2, EQ. apply Permutation_app_head. unfold ratios_of. now apply Permutation_flat_map.
  - rewrite !after_records, R1, R2, EQ. reflexivity.
Qed.

(** *** sequential form of a generation's reports *)
Lemma gen_seq : forall mk qs n a, a + n <= length qs ->
  flat_map (fun c => o2l (outcome ev better p0 mk qs c)) (seq a n) = seq_reports mk a (firstn n (skipn a qs)) (P mk ev better p0 qs a).
Proof.
  intros mk qs. induction n as [|n IH]; intros a H; [reflexivity|].
  destruct (nth_error qs a) as [q|] eqn:E; [|apply nth_error_None in E; lia].
  assert (SK : skipn a qs = q :: skipn (S a) qs).
  { clear - E. revert a E. induction qs as [|x qs IH]; intros [|a] E; try discriminate; [now inversion E|]. apply (IH a E). }
  rewrite SK. cbn [seq flat_map firstn AdaptProps.seq_reports]. rewrite (IH (S a)) by lia. rewrite (P_S _ _ _ _ _ _ _ E). f_equal.
  unfold outcome. rewrite E. unfold outcome1.
  set (p := P mk ev better p0 qs a).
  destruct (nth_error p (kt q)) as [it|], (nth_error p (kb q)) as [ib|], (nth_error p (k0 q)) as [i0|], (nth_error p (k1 q)) as [i1|]; auto.
  destruct (mk a it ib i0 i1) as [|ch|]; auto. destruct (ev a it ch); auto.
Qed.
Lemma seq_reports_ext : forall mk1 mk2 qs c p,
  (forall d it ib i0 i1, c <= d < c + length qs -> mk1 d it ib i0 i1 = mk2 d it ib i0 i1) ->
  seq_reports mk1 c qs p = seq_reports mk2 c qs p.
Proof.
  intros mk1 mk2. induction qs as [|q qs IH]; intros c p H; auto. cbn [AdaptProps.seq_reports].
  assert (E : seq_step mk1 ev better c q p = seq_step mk2 ev better c q p).
  { assert (X := seq_run_ext ev better mk1 mk2 [q] c p). simpl in X. apply X. intros. apply H. simpl. lia. }
  rewrite E, (IH (S c)) by (intros; apply H; simpl; lia). f_equal.
  destruct (nth_error p (kt q)), (nth_error p (kb q)), (nth_error p (k0 q)), (nth_error p (k1 q)); auto. rewrite H; auto. simpl. lia.
Qed.
Lemma mkf_gen : forall rs g n d it ib i0 i1, n <= N -> g * N <= d < g * N + n -> mkf rs d it ib i0 i1 = mkF (r_fm (rs g)) d it ib i0 i1.
Proof.
  intros rs g n d it ib i0 i1 Hn H. unfold AdaptProofs.mkf. replace (d / N) with g; auto.
  apply (Nat.div_unique d N g (d - g * N)); [lia|]. rewrite Nat.mul_comm. lia.
Qed.
Lemma gen_reqs_len : forall g qs, length (gen_reqs N g qs) <= N.
Proof. intros. unfold gen_reqs. rewrite firstn_length. lia. Qed.
Lemma P_gen : forall mk qs g, P mk ev better p0 qs (S g * N) = seq_run mk (g * N) (gen_reqs N g qs) (P mk ev better p0 qs (g * N)) \/ length qs < g * N.
Proof.
  intros mk qs g. destruct (le_lt_dec (g * N) (length qs)) as [L|L]; [left|now right]. unfold P, gen_reqs.
  replace (S g * N) with (g * N + N) by (simpl; lia).
  assert (X : firstn (g * N + N) qs = firstn (g * N) qs ++ firstn N (skipn (g * N) qs)).
  { rewrite <- (firstn_skipn (g * N) qs) at 1. rewrite firstn_app, firstn_length_le by auto.
    rewrite firstn_all2 by (rewrite firstn_length; lia). f_equal. f_equal. lia. }
  rewrite X, seq_run_app. simpl. now rewrite firstn_length_le.
Qed.
Lemma generation_fm : forall k g r r' l, generation k g r = (r', l, None) ->
  (r_fm r' = fm_up up0 up1 (r_fm r) \/ r_fm r' = fm_down (r_fm r)) /\ rscore (r_score r') = Some fzero.
Proof.
  intros k g r r' l H. unfold RunModel.generation in H.
  destruct (negb (r_run r && _)); [discriminate|]. destruct (negb (g_loop g)); [discriminate|]. destruct (g_chal g); try discriminate.
  destruct (truthy_goal _); [discriminate|].
  assert (Q : forall s u, rscore (fst (inquire npsin s u)) = Some fzero) by (intros s u; unfold inquire; destruct (rscore s); auto).
  assert (Q' := Q (rcalls npsin (r_score r) (map CRir (g_rirs g))) (g_u g)).
  destruct (inquire _ _ _) as [s2 ans]. simpl in Q'.
  assert (K : forall s l0 r' l, call_func o k g s l0 = (r', l, None) -> r_fm r' = r_fm s /\ r_score r' = r_score s).
  { clear. intros s l0 r' l H. unfold call_func in H. destruct (o_func o); [destruct (g_func g)|]; inversion H; auto. }
  destruct ans as [[|]|e]; [| |discriminate].
  - apply K in H. destruct H as [-> ->]. auto.
  - destruct (negb (o_bitter o) && _); [destruct (_ <? _)%Z; [discriminate|]|]; apply K in H; destruct H as [-> ->]; auto.
Qed.

(** *** C106 *)
(** A run with its adaptation is one of the runs of C80-C85: all challengers of a
    generation are made with one and the same FManager, that of the generation's
    start; it is the given one in the first generation and has been scaled up or
    down once for each generation finished *)
Theorem C106_refines : forall es s, aexec start es = Some s ->
  exists (Fs : nat -> fman) es',
    lexec (fun c => mkF (Fs (c / N)) c) (linit o p0 fm sc) es' = Some (al s) /\
    lrequests es' = lrequests es /\ Fs 0 = fm /\
    (forall g, g < lkg (al s) -> Fs (S g) = fm_up up0 up1 (Fs g) \/ Fs (S g) = fm_down (Fs g)) /\
    (running (lph (al s)) -> r_fm (lrs (al s)) = Fs (lkg (al s))).
Proof.
  intros es s H. destruct (J_exec _ _ _ _ _ _ _ _ _ _ _ _ _ _ _ _ H) as (rs & cl & HJ).
  destruct (aexecm_lexec _ _ _ _ _ _ _ _ _ _ _ _ _ (j_exec _ _ _ _ _ _ _ _ _ _ _ _ _ _ _ _ _ _ HJ)) as (es' & A & B & _).
  exists (fun g => r_fm (rs g)), es'. split; [exact A|]. split; auto. split; [now rewrite (j_rs0 _ _ _ _ _ _ _ _ _ _ _ _ _ _ _ _ _ _ HJ)|]. split.
  - intros g Hg. destruct (j_chain _ _ _ _ _ _ _ _ _ _ _ _ _ _ _ _ _ _ HJ g Hg) as (u & f & l & _ & X). apply generation_fm in X. apply X.
  - intros R. now rewrite (j_cur _ _ _ _ _ _ _ _ _ _ _ _ _ _ _ _ _ _ HJ R).
Qed.

(** Generation by generation: whatever the timing, the reports of a generation are,
    in some order, those of its challenges performed one after the other on the
    population at its start; the score is what these reports add up to in that
    order; the next FManager is that of RunModel.v's generation *)
Theorem C106_sequential : forall es s, aexec start es = Some s -> lph (al s) = LTop -> prun (lch (al s)) = true ->
  exists (rs : nat -> rst) (bs : nat -> option I) (reps : nat -> list (I * I)) (ps : nat -> list I),
    rs 0 = mkRst true fm 0 sc /\ bs 0 = b0 /\ ps 0 = p0 /\
    (forall g, g < lkg (al s) -> exists u f l,
       nth_error (joins es) g = Some (u, f) /\
       Permutation (reps g) (seq_reports (mkF (r_fm (rs g))) (g * N) (gen_reqs N g (lrequests es)) (ps g)) /\
       generation g (mkGen true true ChDone (score_calls (bs g) (reps g)) u f) (rs g) = (rs (S g), l, None) /\
       bs (S g) = after better (bs g) (reps g) /\
       ps (S g) = seq_run (mkF (r_fm (rs g))) (g * N) (gen_reqs N g (lrequests es)) (ps g)) /\
    lrs (al s) = rs (lkg (al s)) /\ abest s = bs (lkg (al s)) /\ pop (lch (al s)) = ps (lkg (al s)).
Proof.
  intros es s H Ep Pr. destruct (J_exec _ _ _ _ _ _ _ _ _ _ _ _ _ _ _ _ H) as (rs & cl & HJ).
  assert (LI := J_LInv _ _ _ _ _ _ _ _ _ _ _ _ _ _ _ _ _ _ HJ).
  destruct HJ as [J1 J2 J3 J4 J5 J6 J7 J8]. rewrite Ep in *. simpl in *.
  destruct (J8 Pr) as (bests & reps & B0 & B1 & B2 & B3 & B4).
  assert (RQ := aexecm_reqs _ _ _ _ _ _ _ _ _ _ _ _ _ _ _ _ J1).
  assert (LN : length (reqs (lch (al s))) = lkg (al s) * N).
  { destruct LI as [_ _ Ph]. unfold phinv in Ph. rewrite Ep in Ph. destruct Ph as (_ & P2 & _). unfold reqs. rewrite map_length, (shape_len _ _ _ _ P2). lia. }
  exists rs, bests, reps, (fun g => P (mkf rs) ev better p0 (reqs (lch (al s))) (g * N)).
  split; auto. split; auto. split; [reflexivity|]. split.
  - intros g Hg. destruct (J3 g Hg) as (u & f & l & X1 & X2). destruct (B1 g Hg) as (C1 & C2 & C3).
    assert (Hl : S g * N <= length (reqs (lch (al s)))) by (rewrite LN; apply Nat.mul_le_mono_r; lia). simpl in Hl.
    exists u, f, l. split; auto. rewrite <- RQ. split; [|split; [|split; auto]].
    + eapply Permutation_trans; [exact C3|]. unfold gen_of. rewrite gen_seq by lia. unfold gen_reqs.
      erewrite seq_reports_ext; [apply Permutation_refl|]. intros d it ib i0 i1 Hd. rewrite firstn_length in Hd. apply (mkf_gen rs g N); auto. lia.
    + unfold AdaptProps.score_calls. rewrite <- C1. exact X2.
    + destruct (P_gen (mkf rs) (reqs (lch (al s))) g) as [Y|Y]; [|lia]. rewrite Y.
      apply seq_run_ext. intros d it ib i0 i1 Hd. assert (Z := gen_reqs_len g (reqs (lch (al s)))). apply (mkf_gen rs g N); auto. lia.
  - split; auto. split; auto.
    destruct LI as [_ _ Ph]. unfold phinv in Ph. rewrite Ep in Ph. destruct Ph as (_ & _ & _ & P3). rewrite (P3 Pr).
    unfold P. rewrite firstn_all2; [reflexivity|]. lia.
Qed.

(** Once the population has been stopped, nothing that ends counts as a report: neither the
    best individual reported nor the ratios change, and the end of a generation
    only forgets the ratios *)
Theorem C106_stopped : forall (s : ast I) (e : levent) (s' : ast I), AdaptModel.astep mkF ev better histcrash xSSE rir npsin up0 up1 o s e = Some s' -> prun (lch (al s)) = false ->
  abest s' = abest s /\ acalls s' = match e with LJoin _ _ _ => [] | _ => acalls s end.
Proof.
  intros s e s' H Pr. unfold AdaptModel.astep, astepm in H. destruct e as [ev0| | | | | |rirs u f|];
    (match type of H with match ?y with _ => _ end = _ => destruct y as [l1|]; [|discriminate] end);
    try (injection H as <-; auto; fail).
  destruct ev0; try (injection H as <-; auto; fail).
  - injection H as <-. destruct (nth_error _ _) as [[q ph]|]; auto. destruct ph; auto. destruct (ev _ _ _); auto.
    destruct (ChalModel.run _); auto. destruct (_ || _); auto. unfold report. rewrite Pr. auto.
  - injection H as <-. destruct (histcrash _); auto. destruct (find _ _) as [[k [r it]]|]; auto. unfold report. rewrite Pr. auto.
Qed.

(** what the reports of a generation count for, whatever their order: the ratios
    and a bonus for each record - none if no challenger beats the best reported
    before, otherwise at least one and at most one for each that does *)
Theorem C106_bonus : forall b l l', trans -> Permutation l l' ->
  exists k, Permutation (score_calls b l) (repeat 1%Z k ++ ratios_of rir l') /\
    k <= length (filter (fun x => beats b (fst x)) l') /\
    (k = 0 <-> forall r it, In (r, it) l' -> beats b r = false).
Proof.
  intros b l l' T Pm. exists (length (records better b l)).
  assert (F := filter_perm (fun x => beats b (fst x)) _ _ Pm). split; [|split].
  - eapply Permutation_trans; [apply calls_records|]. apply Permutation_app_head. unfold ratios_of. now apply Permutation_flat_map.
  - rewrite <- (Permutation_length F). now apply records_le.
  - assert (X : length (records better b l) = 0 <-> filter (fun x => beats b (fst x)) l' = []).
    { rewrite length_zero_iff_nil, records_nil. split; intros E; rewrite E in F; [now apply Permutation_nil in F|now apply Permutation_sym, Permutation_nil in F]. }
    rewrite X. split.
    + intros E r it Hi. destruct (beats b r) eqn:Eb; auto. assert (In (r, it) (filter (fun x => beats b (fst x)) l')) by (apply filter_In; auto).
      rewrite E in H. contradiction.
    + intros E. destruct (filter _ l') as [|[r it] m] eqn:Ef; auto. assert (Y : In (r, it) (filter (fun x => beats b (fst x)) l')) by (rewrite Ef; now left).
      apply filter_In in Y. destruct Y as [Y1 Y2]. simpl in Y2. rewrite (E r it Y1) in Y2. discriminate.
Qed.

(** the adaptation of a run performed sequentially, generation by generation:
    population, FManager and score, best reported *)
Fixpoint ref (qs : list quad) (js : list (f64 * fout)) (g : nat) : list I * rst * option I :=
  match g with
  | O => (p0, mkRst true fm 0 sc, b0)
  | S g =>
    match ref qs js g, nth g js (fzero, FOk) with
    | (p, r, b), (u, f) =>
      let l := seq_reports (mkF (r_fm r)) (g * N) (gen_reqs N g qs) p in
      (seq_run (mkF (r_fm r)) (g * N) (gen_reqs N g qs) p,
       fst (fst (generation g (mkGen true true ChDone (score_calls b l) u f) r)),
       after better b l)
    end
  end.
Definition calm_at (qs : list quad) (js : list (f64 * fout)) (g : nat) : Prop :=
  match ref qs js g with (p, r, b) => calm better rir b (seq_reports (mkF (r_fm r)) (g * N) (gen_reqs N g qs) p) end.

Lemma seq_reports_len : forall mk qs c p, length (seq_reports mk c qs p) <= length qs.
Proof.
  intros mk. induction qs as [|q qs IH]; intros c p; [auto|]. cbn [AdaptProps.seq_reports]. rewrite app_length.
  assert (X := IH (S c) (seq_step mk ev better c q p)).
  match goal with |- length ?x + _ <= _ => assert (Y : length x <= 1) end; [|simpl; lia].
  destruct (nth_error p (kt q)) as [it|], (nth_error p (kb q)) as [ib|], (nth_error p (k0 q)) as [i0|], (nth_error p (k1 q)) as [i1|]; simpl; auto.
  destruct (mk c it ib i0 i1) as [|ch|]; simpl; auto. destruct (ev c it ch); simpl; auto.
Qed.
Lemma calls_small : forall b l, calm better rir b l -> small (score_calls b l).
Proof.
  intros b l [_ C] z Hz. apply (Permutation_in _ (calls_records l b)) in Hz. apply in_app_or in Hz. destruct Hz as [Hz|Hz].
  - apply repeat_spec in Hz. subst z. lia.
  - unfold ratios_of in Hz. apply in_flat_map in Hz. destruct Hz as ([r it] & H1 & H2). simpl in H2.
    destruct (rir r it) as [z'|] eqn:E; [|contradiction]. destruct H2 as [->|[]]. eapply C; eauto.
Qed.
Lemma calls_len : forall l b, length (score_calls b l) <= 2 * length l.
Proof.
  unfold AdaptProps.score_calls. induction l as [|[r it] l IH]; intros b; [simpl; auto|]. cbn [calls length]. rewrite app_length.
  assert (X := IH (if new_best better b r then Some r else b)). unfold ratios. rewrite app_length.
  destruct (new_best better b r), (rir r it); simpl in *; lia.
Qed.

(** When in each generation at most one challenger beats the best reported before
    it, and every ratio is at least 1, a run's population, scale range, dwell
    count, score and best are those of the sequential run: timing has no influence *)
Theorem C106_run : forall es s, trans -> fresh sc -> N <= 2048 ->
  aexec start es = Some s -> lph (al s) = LTop -> prun (lch (al s)) = true ->
  (forall g, g < lkg (al s) -> calm_at (lrequests es) (joins es) g) ->
  (pop (lch (al s)), lrs (al s), abest s) = ref (lrequests es) (joins es) (lkg (al s)).
Proof.
  intros es s T Fr HN H Ep Pr Cm. destruct (C106_sequential es s H Ep Pr) as (rs & bs & reps & ps & R0 & B0 & P0 & St & E1 & E2 & E3).
  rewrite E1, E2, E3.
  assert (X : forall g, g <= lkg (al s) -> (ps g, rs g, bs g) = ref (lrequests es) (joins es) g /\ fresh (r_score (rs g))).
  { induction g as [|g IH]; intros Hg.
    - simpl. rewrite R0, B0, P0. auto.
    - destruct (IH ltac:(lia)) as [E F]. destruct (St g Hg) as (u & f & l & S1 & S2 & S3 & S4 & S5).
      assert (C := Cm g Hg). unfold calm_at in C. cbn [ref]. rewrite <- E in C |- *.
      assert (NE : nth g (joins es) (fzero, FOk) = (u, f)) by now apply nth_error_nth. rewrite NE.
      set (sr := seq_reports (mkF (r_fm (rs g))) (g * N) (gen_reqs N g (lrequests es)) (ps g)) in *.
      destruct (calm_perm (bs g) sr (reps g) T (Permutation_sym S2) C) as [C1 C2].
      assert (SP : rcalls npsin (r_score (rs g)) (map CRir (score_calls (bs g) sr)) = rcalls npsin (r_score (rs g)) (map CRir (score_calls (bs g) (reps g)))).
      { apply score_perm; auto; [now apply calls_small|]. etransitivity; [apply calls_len|].
        assert (Y := seq_reports_len (mkF (r_fm (rs g))) (gen_reqs N g (lrequests es)) (g * N) (ps g)). fold sr in Y.
        assert (Y2 := gen_reqs_len g (lrequests es)). lia. }
      assert (G : generation g (mkGen true true ChDone (score_calls (bs g) sr) u f) (rs g) = (rs (S g), l, None)).
      { rewrite <- S3. unfold RunModel.generation. cbn [RunModel.g_wait g_loop g_chal g_rirs g_u g_func]. rewrite SP. reflexivity. }
      rewrite G, S5, S4, <- C2. split; [reflexivity|]. right. eapply generation_fm; exact S3. }
  apply X. lia.
Qed.
(** so two such runs with the same draws agree *)
Theorem C106_timing : forall es1 es2 s1 s2, trans -> fresh sc -> N <= 2048 ->
  aexec start es1 = Some s1 -> aexec start es2 = Some s2 ->
  lph (al s1) = LTop -> lph (al s2) = LTop -> prun (lch (al s1)) = true -> prun (lch (al s2)) = true ->
  lrequests es1 = lrequests es2 -> joins es1 = joins es2 ->
  (forall g, g < length (joins es1) -> calm_at (lrequests es1) (joins es1) g) ->
  pop (lch (al s1)) = pop (lch (al s2)) /\ lrs (al s1) = lrs (al s2) /\ abest s1 = abest s2.
Proof.
  intros es1 es2 s1 s2 T Fr HN H1 H2 E1 E2 P1 P2 Q1 Q2 Cm.
  assert (K : forall es s, aexec start es = Some s -> lph (al s) = LTop -> lkg (al s) = length (joins es)).
  { intros es s H E. destruct (J_exec _ _ _ _ _ _ _ _ _ _ _ _ _ _ _ _ H) as (rs & cl & HJ).
    symmetry. apply (j_joins _ _ _ _ _ _ _ _ _ _ _ _ _ _ _ _ _ _ HJ). rewrite E. exact Logic.I. }
  assert (R1 := C106_run es1 s1 T Fr HN H1 E1 P1 ltac:(intros g Hg; apply Cm; now rewrite <- (K es1 s1 H1 E1))).
  assert (R2 := C106_run es2 s2 T Fr HN H2 E2 P2 ltac:(intros g Hg; rewrite <- Q1, <- Q2; apply Cm; rewrite Q2; now rewrite <- (K es2 s2 H2 E2))).
  rewrite (K es1 s1 H1 E1) in R1. rewrite (K es2 s2 H2 E2), <- Q1, <- Q2, <- R1 in R2. inversion R2. auto.
Qed.

(** F drawn for a challenge never leaves the range given at the start (with C17) *)
Theorem C106_F_in_range : forall F CR Np ad es s u, fm = fm_init F CR Np ad ->
  good_F F -> good_CR_Np CR Np -> good_pow up0 up1 -> unit_draw u -> aexec start es = Some s ->
  exists (Fs : nat -> fman) es',
    lexec (fun c => mkF (Fs (c / N)) c) (linit o p0 fm sc) es' = Some (al s) /\ lrequests es' = lrequests es /\
    forall g, g <= lkg (al s) ->
      fleb fzero (fm_lowest (Fs g)) = true /\ fleb (fm_lowest (Fs g)) (fm_get u (Fs g)) = true /\ fleb (fm_get u (Fs g)) (highF F) = true.
Proof.
  intros F CR Np ad es s u E G1 G2 G3 Hu H. destruct (C106_refines es s H) as (Fs & es' & A & B & C & D & _).
  exists Fs, es'. split; auto. split; auto.
  assert (X : forall g, g <= lkg (al s) -> exists ops, Fs g = fm_run up0 up1 fm ops).
  { induction g as [|g IH]; intros Hg; [exists []; exact C|]. destruct (IH ltac:(lia)) as [ops Ho].
    destruct (D g ltac:(lia)) as [Y|Y]; [exists (ops ++ [Up])|exists (ops ++ [Down])]; unfold fm_run in *; rewrite fold_left_app; simpl; now rewrite <- Ho. }
  intros g Hg. destruct (X g Hg) as [ops Ho]. rewrite Ho, E.
  destruct (C17_F_within_original F CR Np ad up0 up1 ops u G1 G2 G3 Hu) as (_ & _ & Z1 & _ & Z2 & _ & Z3). auto.
Qed.
End Generic.

(** ** Concrete runs *)
(** individuals are integers, lower is better; members 10, 20, 20, ...; challenge 0
    yields 9, challenge 1 yields [v], all others fail their constraints *)
Definition ax_members (n : nat) : list Z := 10%Z :: repeat 20%Z (n - 1).
Definition ax_mkF (_ : fman) (c : nat) (it ib i0 i1 : Z) : mkres Z := if c <? 2 then Candidate (Z.of_nat c) else Rejected.
Definition ax_ev (v : Z) (c : nat) (it ch : Z) : option Z := Some (if c =? 0 then 9%Z else v).
Definition ax_rir (r it : Z) : option Z := if (r <? it)%Z then Some 1%Z else None.
Definition ax_qd (c : nat) : quad :=
  if c <? 2 then mkQuad c 2 3 4 else mkQuad c 0 1 (if c =? 2 then 3 else 2).
Definition ax_chev (c : nat) : list levent := [LC (EResume c); LC (ERelease c); LC (ERelease c); LC (ERelease c); LC (EMutate c)].
Definition ax_fin (c : nat) : list levent := [LC (EEvalDone c); LC (ERelT c)].
(** one generation; challenges 0 and 1 finish in the order given *)
Definition ax_sched (n : nat) (order : list nat) : list levent :=
  [LGo] ++ map (fun c => LReq (ax_qd c)) (seq 0 n) ++ [LAll] ++ ax_chev 0 ++ ax_chev 1 ++ flat_map ax_fin order ++
  flat_map (fun c => ax_chev c ++ [LC (ERelT c)]) (seq 2 (n - 2)).
Definition ax_op : opts := mkOpts 10 false 5 None false.
Definition ax_fm0 : fman := fm_init (FPair (flit 1 (-1)) fone) (flit 7205759403792794 (-53)) 90 true.
Definition ax_view (s : option (ast Z)) : option (list Z * option Z * list Z * nat * bool) :=
  option_map (fun s => (acalls s, abest s, pop (lch (al s)), lkg (al s),
    match lph (al s) with LWait _ => ChalModel.run (lch (al s)) && forallb pdone (cs (lch (al s))) && prun (lch (al s)) | _ => false end)) s.
Section Concrete.
Variable npsin : f64 -> f64.
Variable sc : score.
Notation aexec v := (aexec ax_mkF (ax_ev v) Z.ltb (fun _ => false) false ax_rir npsin c_up89 c_up87 ax_op).
Notation start n := (ainit ax_op (ax_members n) ax_fm0 sc (Some 10%Z)).
Lemma Zltb_trans : trans Z.ltb.
Proof. intros x y z A B. apply Z.ltb_lt in A, B. apply Z.ltb_lt. lia. Qed.
(** the runs of five and of ninety ax_members up to the end of the first generation *)
Lemma run5 : ax_view (aexec 12%Z (start 5) (ax_sched 5 [0; 1])) = Some ([1; 1; 1]%Z, Some 9%Z, [9; 12; 20; 20; 20]%Z, 0, true) /\
             ax_view (aexec 12%Z (start 5) (ax_sched 5 [1; 0])) = Some ([1; 1; 1]%Z, Some 9%Z, [9; 12; 20; 20; 20]%Z, 0, true).
Proof. split; vm_compute; reflexivity. Qed.
(** the population is stopped while a better challenger is being evaluated: it becomes a
    member, and nothing is counted *)
Example C106_stopped_nonvacuous : let es := [LGo] ++ map (fun c => LReq (ax_qd c)) (seq 0 5) ++ [LAll] ++ ax_chev 0 ++ [LC EPopAbort] in
  option_map (fun s => prun (lch (al s))) (aexec 12%Z (start 5) es) = Some false /\
  ax_view (aexec 12%Z (start 5) (es ++ [LC (EEvalDone 0)])) = Some ([], Some 10%Z, [9; 20; 20; 20; 20]%Z, 0, false).
Proof. split; vm_compute; reflexivity. Qed.
Lemma run90 : ax_view (aexec 8%Z (start 90) (ax_sched 90 [0; 1])) = Some ([1; 1; 1; 1]%Z, Some 8%Z, 9%Z :: 8%Z :: repeat 20%Z 88, 0, true) /\
              ax_view (aexec 8%Z (start 90) (ax_sched 90 [1; 0])) = Some ([1; 1; 1]%Z, Some 8%Z, 9%Z :: 8%Z :: repeat 20%Z 88, 0, true).
Proof. split; vm_compute; reflexivity. Qed.

Lemma after_join : forall v n es s ca b p u, 5 <= n -> aexec v (start n) es = Some s -> ax_view (Some s) = Some (ca, b, p, 0, true) ->
  exists s', aexec v (start n) (es ++ [LJoin [] u FOk]) = Some s' /\ pop (lch (al s')) = p /\ prun (lch (al s')) = true /\ abest s' = b /\
    match generation npsin c_up89 c_up87 ax_op 0 (mkGen true true ChDone ca u FOk) (mkRst true ax_fm0 0 sc) with
    | (r, _, None) => lph (al s') = LTop /\ lkg (al s') = 1 /\ lrs (al s') = r
    | _ => True
    end.
Proof.
  intros v n es s ca b p u Hn H V. rewrite aexec_app, H. cbn [AdaptModel.aexec].
  destruct (J_exec _ _ _ _ _ _ _ _ _ _ _ _ _ _ _ _ H) as (rs & cl & HJ).
  unfold ax_view in V. simpl in V. injection V as V1 V2 V3 V4 V5.
  destruct (lph (al s)) as [|? ?|f| |] eqn:Ep; try discriminate.
  apply andb_true_iff in V5. destruct V5 as [V5 V6]. apply andb_true_iff in V5. destruct V5 as [V5 V7].
  assert (R : lrs (al s) = mkRst true ax_fm0 0 sc).
  { rewrite (j_cur _ _ _ _ _ _ _ _ _ _ _ _ _ _ _ _ _ _ HJ) by (rewrite Ep; exact Logic.I). rewrite V4. apply (j_rs0 _ _ _ _ _ _ _ _ _ _ _ _ _ _ _ _ _ _ HJ). }
  assert (F : forallb pdone (skipn f (cs (lch (al s)))) = true).
  { apply forallb_forall. intros x Hx. rewrite forallb_forall in V7. apply V7. rewrite <- (firstn_skipn f (cs (lch (al s)))). apply in_or_app. now right. }
  unfold AdaptModel.astep, AdaptModel.astepm, lstep. rewrite Ep, V5, F. cbn [andb].
  eexists. split; [reflexivity|]. cbn [al abest]. unfold gen_end. rewrite R, V4, V1.
  destruct (generation npsin c_up89 c_up87 ax_op 0 (mkGen true true ChDone ca u FOk) (mkRst true ax_fm0 0 sc)) as [[r l] w] eqn:Eg.
  destruct w as [w|].
  - unfold left. destruct w; try destruct (r_run r); simpl; auto.
  - unfold loop_head. simpl. auto 10.
Qed.
End Concrete.
Lemma view_some : forall x v, ax_view x = Some v -> exists t, x = Some t /\ ax_view (Some t) = Some v.
Proof. intros [t|] v H; [exists t; auto|discriminate]. Qed.
(** 0.02 * Np, the default status quo score (population.py:394, 424) *)
Definition ax_sq (n : Z) : f64 := fmul (flit 5764607523034235 (-58)) (fofZ n).
Definition ax_sc (n : Z) : score := mkScore (Some fzero) (ax_sq n).
(** the probability with which the status quo is kept for a score of 1.5 and 90 members: about 0.93 *)
Definition ax_prob (npsin : f64 -> f64) : f64 := keep_prob npsin (fdiv (flit 3 (-1)) (ax_sq 90)).
Lemma gen_kept : forall npsin ca n u, fltb fone (fdiv (match rscore (rcalls npsin (ax_sc n) (map CRir ca)) with Some x => x | None => fzero end) (ax_sq n)) = true ->
  feqb (ax_sq n) fzero = false -> rscore (rcalls npsin (ax_sc n) (map CRir ca)) <> None -> sqs (rcalls npsin (ax_sc n) (map CRir ca)) = ax_sq n ->
  generation npsin c_up89 c_up87 ax_op 0 (mkGen true true ChDone ca u FOk) (mkRst true ax_fm0 0 (ax_sc n)) =
    (mkRst true (fm_up c_up89 c_up87 ax_fm0) 0 (ax_sc n), [EStart 0; EUp 0], None).
Proof.
  intros npsin ca n u H1 H2 H3 H4. unfold generation. cbn [r_run RunModel.g_wait g_loop g_chal negb andb truthy_goal o_goal ax_op r_score g_rirs g_u].
  unfold inquire. rewrite H4. destruct (rscore (rcalls npsin (ax_sc n) (map CRir ca))) as [x|]; [|congruence]. unfold keep_sq. rewrite H2, H1. reflexivity.
Qed.
(** Two runs with ninety members, in which the same challenges are started, the
    same challengers made and evaluated to the same SSEs, and the same number drawn
    in the inquiry; only the order in which the first two evaluations end differs.
    With any draw [u] of at least about 0.93, one scales its F range up, the other
    down: the bonus for a new best depends on the order *)
Theorem C106_timing_refuted : forall npsin u, fltb u (ax_prob npsin) = false ->
  exists es1 es2 s1 s2,
    let aexec := aexec ax_mkF (ax_ev 8) Z.ltb (fun _ => false) false ax_rir npsin c_up89 c_up87 ax_op in
    let start := ainit ax_op (ax_members 90) ax_fm0 (ax_sc 90) (Some 10%Z) in
    aexec start es1 = Some s1 /\ aexec start es2 = Some s2 /\
    lrequests es1 = lrequests es2 /\ joins es1 = joins es2 /\ lph (al s1) = LTop /\ lph (al s2) = LTop /\
    lkg (al s1) = 1 /\ lkg (al s2) = 1 /\
    pop (lch (al s1)) = pop (lch (al s2)) /\ abest s1 = abest s2 /\
    r_fm (lrs (al s1)) = fm_up c_up89 c_up87 ax_fm0 /\ r_fm (lrs (al s2)) = fm_down ax_fm0 /\
    fltb (fm_lowest (r_fm (lrs (al s2)))) (fm_lowest (r_fm (lrs (al s1)))) = true.
Proof.
  intros npsin u Hu. destruct (run90 npsin (ax_sc 90)) as [R1 R2].
  destruct (view_some _ _ R1) as (t1 & E1 & V1).
  destruct (view_some _ _ R2) as (t2 & E2 & V2).
  destruct (after_join npsin (ax_sc 90) 8 90 _ t1 _ _ _ u ltac:(lia) E1 V1) as (s1 & A1 & A2 & A3 & A4 & A5).
  destruct (after_join npsin (ax_sc 90) 8 90 _ t2 _ _ _ u ltac:(lia) E2 V2) as (s2 & B1 & B2 & B3 & B4 & B5).
  rewrite gen_kept in A5; [|vm_compute; reflexivity|vm_compute; reflexivity|cbn [map rcalls replacement ax_sc rscore sqs fst]; discriminate|cbn [map rcalls replacement ax_sc rscore sqs fst]; reflexivity].
  destruct A5 as (A5 & A6 & A7).
  assert (G : generation npsin c_up89 c_up87 ax_op 0 (mkGen true true ChDone [1; 1; 1]%Z u FOk) (mkRst true ax_fm0 0 (ax_sc 90)) =
    (mkRst true (fm_down ax_fm0) 0 (ax_sc 90), [EStart 0; EDown 0 (fm_limited (fm_down ax_fm0))], None)).
  { unfold generation. cbn [r_run RunModel.g_wait g_loop g_chal negb andb truthy_goal o_goal ax_op r_score g_rirs g_u].
    unfold inquire. cbn [map rcalls replacement ax_sc rscore sqs fst].
    assert (X : fadd (fadd (fadd fzero (addition 1)) (addition 1)) (addition 1) = flit 3 (-1)) by (apply feqb_eq; vm_compute; reflexivity).
    rewrite X. unfold keep_sq.
    assert (Y1 : feqb (ax_sq 90) fzero = false) by (vm_compute; reflexivity).
    assert (Y2 : fltb fone (fdiv (flit 3 (-1)) (ax_sq 90)) = false) by (vm_compute; reflexivity).
    rewrite Y1, Y2. fold (ax_prob npsin). rewrite Hu.
    assert (Y3 : fm_limited (fm_down ax_fm0) = false) by (vm_compute; reflexivity). cbn [r_fm r_dwell]. rewrite Y3. reflexivity. }
  rewrite G in B5. destruct B5 as (B5 & B6 & B7).
  exists (ax_sched 90 [0; 1] ++ [LJoin [] u FOk]), (ax_sched 90 [1; 0] ++ [LJoin [] u FOk]), s1, s2. cbv zeta.
  split; [exact A1|]. split; [exact B1|]. split; [vm_compute; reflexivity|]. split; [vm_compute; reflexivity|].
  split; auto. split; auto. split; auto. split; auto. split; [congruence|]. split; [congruence|]. rewrite A7, B7. cbn [r_fm].
  split; [reflexivity|]. split; [reflexivity|]. vm_compute. reflexivity.
Qed.
(** such a draw: the sine of the value is about 0.866 *)
Example C106_refuted_draw : fltb (flit 8556839292003943 (-53)) (ax_prob (fun _ => flit 7800463371553962 (-53))) = false /\
  fltb (flit 8556839292003943 (-53)) fone = true.
Proof. split; vm_compute; reflexivity. Qed.
(** runs of C106_timing: five members, challenges 0 and 1 ending in either order *)
Example C106_timing_nonvacuous : forall npsin (u : f64),
  exists es1 es2 s1 s2,
    let aexec := aexec ax_mkF (ax_ev 12) Z.ltb (fun _ => false) false ax_rir npsin c_up89 c_up87 ax_op in
    let start := ainit ax_op (ax_members 5) ax_fm0 (ax_sc 5) (Some 10%Z) in
    aexec start es1 = Some s1 /\ aexec start es2 = Some s2 /\ es1 <> es2 /\
    lrequests es1 = lrequests es2 /\ joins es1 = joins es2 /\ lph (al s1) = LTop /\ lph (al s2) = LTop /\
    prun (lch (al s1)) = true /\ prun (lch (al s2)) = true /\ lkg (al s1) = 1 /\ lkg (al s2) = 1 /\
    trans Z.ltb /\ fresh (ax_sc 5) /\
    calm_at ax_mkF (ax_ev 12) Z.ltb ax_rir npsin c_up89 c_up87 ax_op (ax_members 5) ax_fm0 (ax_sc 5) (Some 10%Z) (lrequests es1) (joins es1) 0 /\
    seq_reports (ax_ev 12) Z.ltb (ax_mkF ax_fm0) 0 (gen_reqs 5 0 (lrequests es1)) (ax_members 5) = [(9, 10); (12, 20)]%Z /\
    pop (lch (al s1)) = [9; 12; 20; 20; 20]%Z.
Proof.
  intros npsin u. destruct (run5 npsin (ax_sc 5)) as [R1 R2].
  destruct (view_some _ _ R1) as (t1 & E1 & V1).
  destruct (view_some _ _ R2) as (t2 & E2 & V2).
  destruct (after_join npsin (ax_sc 5) 12 5 _ t1 _ _ _ u ltac:(lia) E1 V1) as (s1 & A1 & A2 & A3 & A4 & A5).
  destruct (after_join npsin (ax_sc 5) 12 5 _ t2 _ _ _ u ltac:(lia) E2 V2) as (s2 & B1 & B2 & B3 & B4 & B5).
  assert (Q : forall v, generation npsin c_up89 c_up87 ax_op 0 (mkGen true true ChDone [1; 1; 1]%Z v FOk) (mkRst true ax_fm0 0 (ax_sc 5)) =
    (mkRst true (fm_up c_up89 c_up87 ax_fm0) 0 (ax_sc 5), [EStart 0; EUp 0], None)).
  { intros v. apply gen_kept; [vm_compute; reflexivity|vm_compute; reflexivity|cbn [map rcalls replacement ax_sc rscore sqs fst]; discriminate|cbn [map rcalls replacement ax_sc rscore sqs fst]; reflexivity]. }
  rewrite Q in A5, B5.
  destruct A5 as (A5 & A6 & A7), B5 as (B5 & B6 & B7).
  exists (ax_sched 5 [0; 1] ++ [LJoin [] u FOk]), (ax_sched 5 [1; 0] ++ [LJoin [] u FOk]), s1, s2. cbv zeta.
  assert (SR : seq_reports (ax_ev 12) Z.ltb (ax_mkF ax_fm0) 0 (gen_reqs 5 0 (lrequests (ax_sched 5 [0; 1] ++ [LJoin [] u FOk]))) (ax_members 5) = [(9, 10); (12, 20)]%Z) by (vm_compute; reflexivity).
  split; [exact A1|]. split; [exact B1|]. split.
  { intros X. apply (f_equal (map (fun e => match e with LC (EEvalDone c) => c | _ => 9 end))) in X. vm_compute in X. discriminate X. }
  split; [vm_compute; reflexivity|]. split; [vm_compute; reflexivity|].
  split; auto. split; auto. split; auto. split; auto. split; auto. split; auto. split; [exact Zltb_trans|]. split; [right; reflexivity|].
  split; [|split; [exact SR|exact A2]].
  unfold calm_at, ref. change (0 * length (ax_members 5)) with 0. change (length (ax_members 5)) with 5. cbn [r_fm]. rewrite SR.
  split; [vm_compute; lia|]. intros r it z [H|[H|[]]]; injection H as <- <-; intros [= <-]; lia.
Qed.
(** the runs above also meet the hypotheses of C106_refines, C106_sequential and
    C106_run; their FManager those of C106_F_in_range *)
Example C106_F_nonvacuous : exists F CR Np, ax_fm0 = fm_init F CR Np true /\ good_F F /\ good_CR_Np CR Np /\ good_pow c_up89 c_up87.
Proof.
  exists (FPair (flit 1 (-1)) fone), (flit 7205759403792794 (-53)), 90%Z. split; [reflexivity|]. split; [|split].
  - split; [reflexivity|]. split; [reflexivity|]. split; [vm_compute; reflexivity|]. split; [vm_compute; reflexivity|]. vm_compute. reflexivity.
  - split; [vm_compute; reflexivity|]. split; [vm_compute; reflexivity|lia].
  - split; vm_compute; auto.
Qed.
(** the bonus for the same reports in two orders: two records, or one *)
Example C106_bonus_nonvacuous : Permutation [(9, 10); (8, 20)]%Z [(8, 20); (9, 10)]%Z /\ trans Z.ltb /\
  score_calls Z.ltb ax_rir (Some 10%Z) [(9, 10); (8, 20)]%Z = [1; 1; 1; 1]%Z /\
  score_calls Z.ltb ax_rir (Some 10%Z) [(8, 20); (9, 10)]%Z = [1; 1; 1]%Z.
Proof. split; [apply perm_swap|]. split; [exact Zltb_trans|]. split; reflexivity. Qed.
(** "<" of individuals is transitive *)
Example C106_individuals : trans ind_lt.
Proof. intros x y z. unfold ind_lt. apply fltb_trans. Qed.

(** Zero ratios add 0.1 each, and sums of floats depend on their order too: with
    the same ratios, a different score *)
Theorem C106_zero_ratios_refuted : exists l l', Permutation l l' /\ (forall z, In z l -> (0 <= z <= 1)%Z) /\
  forall npsin q, exists x y,
    rcalls npsin (mkScore (Some fzero) q) (map CRir l) = mkScore (Some x) q /\
    rcalls npsin (mkScore (Some fzero) q) (map CRir l') = mkScore (Some y) q /\ fltb y x = true.
Proof.
  exists [0; 0; 0; 1]%Z, [1; 0; 0; 0]%Z. split.
  { apply Permutation_sym. apply (Permutation_cons_append [0; 0; 0]%Z 1%Z). }
  split; [simpl; intuition lia|].
  intros npsin q. eexists; eexists. split; [reflexivity|]. split; [reflexivity|]. vm_compute. reflexivity.
Qed.

Print Assumptions C106_refines.
Print Assumptions C106_sequential.
Print Assumptions C106_stopped.
Print Assumptions C106_bonus.
Print Assumptions C106_run.
Print Assumptions C106_timing.
Print Assumptions C106_F_in_range.
Print Assumptions C106_timing_refuted.
Print Assumptions C106_zero_ratios_refuted.

(** * Properties of the ventilation fan controller (C100, C101, C102). *)
From Coq Require Import Reals ZArith List Bool Lia Lra Psatz.
From Flocq Require Import Core BinarySingleNaN.
From Verif Require Import Flt FltMore Py FanModel FanProofs.
Import ListNotations.
Local Open Scope R_scope.

(** ** C100: the decision *)
(** The inside temperature that counts: one degree more while the fan runs *)
Definition felt (on : bool) (i : f64) : f64 := if on then fadd i (fofZ 1) else i.
Lemma decide_dec on o i : decideFan on o i = dec o (felt on i). Proof. reflexivity. Qed.

(** The fan is wanted only if the inside is warmer than the outside and at least 10
    degrees; in particular not if a temperature is NaN *)
Theorem C100_cooling on o i : decideFan on o i = true -> fltb o (felt on i) = true /\ fleb (fofZ 10) (felt on i) = true /\ isnan o = false /\ isnan i = false.
Proof.
  rewrite decide_dec. intros H. destruct (dec_lt _ _ H) as [A B]. split; [exact A|]. split; [exact B|]. split; [now apply fltb_spec in A|].
  apply fltb_spec in A as (_ & A & _). unfold felt in A. destruct on; [|exact A]. destruct i; try reflexivity. discriminate A.
Qed.
Example C100_cooling_ex : decideFan false (fofZ 16) (fofZ 20) = true /\ decideFan true (fofZ 17) (fofZ 20) = true /\ decideFan false (fofZ 17) (fofZ 20) = false /\
  decideFan false (fofZ (-30)) (fofZ 9) = false /\ decideFan true (fofZ (-30)) (fofZ 9) = true.
Proof. vm_compute. repeat split; reflexivity. Qed.
(** A colder outside or a warmer inside never ends the wish *)
Theorem C100_monotone on o o' i i' : fleb o' o = true -> fleb i i' = true -> decideFan on o i = true -> decideFan on o' i' = true.
Proof.
  rewrite !decide_dec. intros A B. apply dec_mono; [exact A|]. unfold felt. destruct on; [|exact B].
  apply fleb_spec in B as (N & N' & B). destruct (fofZ_val 1 eq_refl) as [F1 _].
  assert (M : isnan (fofZ 1) = false) by reflexivity.
  destruct (isfin_cases i N) as [Fi|[->| ->]]; destruct (isfin_cases i' N') as [Fi'|[->| ->]]; try reflexivity.
  - destruct (fadd_key i _ Fi F1) as [A1 K1]. destruct (fadd_key i' _ Fi' F1) as [A2 K2]. apply fleb_spec. split; [exact A1|]. split; [exact A2|]. rewrite K1, K2. rewrite (key_fin _ Fi), (key_fin _ Fi') in B. apply crnd_mono. lra.
  - destruct (fadd_key i _ Fi F1) as [A1 K1]. apply fleb_spec. split; [exact A1|]. split; [reflexivity|]. change (fadd finf (fofZ 1)) with finf. rewrite key_pinf. apply key_bound.
  - exfalso. rewrite key_ninf, (key_fin _ Fi) in B. generalize (fin_bound i). lra.
  - exfalso. rewrite key_pinf, (key_fin _ Fi') in B. generalize (fin_bound i'). lra.
  - exfalso. rewrite key_pinf, key_ninf in B. generalize big_pos. lra.
  - destruct (fadd_key i' _ Fi' F1) as [A2 K2]. apply fleb_spec. split; [reflexivity|]. split; [exact A2|]. change (fadd fninf (fofZ 1)) with fninf. rewrite key_ninf. apply key_bound.
Qed.
Example C100_monotone_ex : fleb (fofZ 10) (fofZ 16) = true /\ fleb (fofZ 20) (fofZ 30) = true /\ decideFan false (fofZ 16) (fofZ 20) = true.
Proof. vm_compute. repeat split; reflexivity. Qed.
(** Hysteresis: what makes a resting fan run keeps it running *)
Theorem C100_hysteresis o i : decideFan false o i = true -> decideFan true o i = true.
Proof.
  rewrite !decide_dec. intros H. pose proof H as H'. apply dec_spec in H' as (No & Ni & _). revert H. apply dec_mono; [|now apply add_one_ge].
  apply fleb_spec. repeat split; try assumption. lra.
Qed.
Example C100_hysteresis_ex : decideFan false (fofZ 16) (fofZ 20) = true. Proof. vm_compute. reflexivity. Qed.
(** From 45 degrees on any outside temperature below the inside one will do *)
Theorem C100_hot on o i : fleb (fofZ 45) (felt on i) = true -> decideFan on o i = fltb o (felt on i).
Proof. rewrite decide_dec. apply dec_hot. Qed.
Example C100_hot_ex : fleb (fofZ 45) (felt false (fofZ 45)) = true /\ fltb (fofZ 45) (fofZ 45) = false /\ fltb (fofZ 44) (fofZ 45) = true.
Proof. vm_compute. repeat split; reflexivity. Qed.
(** Between, the inside must be warmer by a margin that falls from 4.9 degrees at 10 to 3.5
    at 20 and to nothing at 45; a picodegree from the margin the roundings do not matter *)
Theorem C100_margin on o i : isfin o = true -> isfin (felt on i) = true -> 10 <= B2R (felt on i) ->
  let x := B2R (felt on i) in let margin := Rmax 0 (3.5 * ((45 - x) / (45 - 20))) in
  (margin + / 1000000000000 <= x - B2R o -> decideFan on o i = true) /\
  (decideFan on o i = true -> margin - / 1000000000000 < x - B2R o).
Proof.
  intros Fo Fx L x margin. rewrite decide_dec. assert (Nx : isnan (felt on i) = false) by (destruct (felt on i); try reflexivity; discriminate Fx).
  assert (No : isnan o = false) by (destruct o; try reflexivity; discriminate Fo).
  assert (M : margin = Rmax 0 (6.3 - 0.14 * x)) by (unfold margin; apply (f_equal (Rmax 0)); lra).
  assert (SP : dec o (felt on i) = true <-> TD x < crnd (x - B2R o)).
  { rewrite dec_spec. split.
    - intros (_ & _ & _ & _ & [E|[E|(_ & _ & H)]]); [rewrite E in Fx; discriminate Fx|rewrite E in Fo; discriminate Fo|exact H].
    - intros H. split; [exact No|]. split; [exact Nx|]. split; [rewrite key_fin by exact Fx; exact L|]. split; [intros E; rewrite E in Fo; discriminate Fo|]. auto. }
  rewrite SP, M. clear M margin. fold x in L. destruct (Rle_dec x 45) as [H|H].
  - pose proof (TD_near x (conj L H)) as T. apply Rabs_le_inv in T. rewrite Rmax_right by lra.
    assert (E : 0 < bpow radix2 (-49) < / 100000000000000) by (simpl; lra). split; intros D.
    + apply crnd_gt_sub with (e := 6.3 - 0.14 * x + / 1000000000000); lra.
    + destruct (Rlt_le_dec (6.3 - 0.14 * x - / 1000000000000) (x - B2R o)) as [Y|Y]; [exact Y|]. exfalso.
      assert (A : Rabs (6.3 - 0.14 * x - / 1000000000000) <= 16) by (apply Rabs_le; lra). pose proof (crnd_err _ A) as X. apply Rabs_le_inv in X. pose proof (crnd_mono _ _ Y). lra.
  - rewrite TD_hot by lra. rewrite Rmax_left by lra. split; intros D.
    + apply crnd_sub_pos; [exact Fx|exact Fo|]. unfold x in D. lra.
    + destruct (Rlt_le_dec 0 (x - B2R o)) as [Y|Y]; [lra|]. pose proof (crnd_le0 _ Y). lra.
Qed.
Example C100_margin_ex : isfin (fofZ 16) = true /\ isfin (felt true (fofZ 20)) = true /\ fleb (fofZ 10) (felt true (fofZ 20)) = true.
Proof. vm_compute. repeat split; reflexivity. Qed.

(** ** C101: switching *)
Definition seconds (n : Z) : Z := (n * 1000000)%Z.
Definition same (s s' : fan) : Prop := since s = since s' /\ state s = state s' /\ writes s = writes s'.
Lemma same_refl s : same s s. Proof. repeat split. Qed.
Lemma same_trans s1 s2 s3 : same s1 s2 -> same s2 s3 -> same s1 s3. Proof. unfold same. intuition congruence. Qed.
Lemma temps_same a nplog V s : same (fst (getTemps a nplog V s)) s /\ rows (fst (getTemps a nplog V s)) = rows s.
Proof. unfold getTemps. destruct V as [[v0|] [v1|]]; try (split; [apply same_refl|reflexivity]). cbv zeta. destruct Nat.ltb; split; try reflexivity; repeat split. Qed.
Lemma setFan_same t on s s' : same s s' -> same (fst (setFan t on s)) (fst (setFan t on s')) /\ snd (setFan t on s) = snd (setFan t on s').
Proof.
  intros (A & B & C). unfold setFan. rewrite A, B. destruct (state s') as [b|] eqn:B'; [|split; [unfold same; cbn; repeat split; congruence|reflexivity]].
  destruct (Bool.eqb _ _); [split; [unfold same; cbn; repeat split; congruence|reflexivity]|]. destruct (_ <? _)%Z; (split; [unfold same; cbn; repeat split; congruence|reflexivity]).
Qed.
(** what a round does *)
Lemma round_cases a nplog s e :
  (online e = false /\ one_round a nplog s e = fst (setFan (now e) false s)) \/
  (online e = true /\ snd (getTemps a nplog (volts e) s) = None /\ one_round a nplog s e = fst (getTemps a nplog (volts e) s)) \/
  (online e = true /\ exists o i, snd (getTemps a nplog (volts e) s) = Some (o, i) /\
     let on := decideFan (match state s with Some b => b | None => false end) o i in
     same (one_round a nplog s e) (fst (setFan (now e) on s)) /\
     rows (one_round a nplog s e) = rows s ++ [(now e, o, i, snd (setFan (now e) on s))] /\
     outs (one_round a nplog s e) = outs (fst (getTemps a nplog (volts e) s)) /\
     ins (one_round a nplog s e) = ins (fst (getTemps a nplog (volts e) s)) /\
     ys (one_round a nplog s e) = ys (fst (getTemps a nplog (volts e) s))).
Proof.
  unfold one_round. destruct (online e); [|left; auto]. right. pose proof (temps_same a nplog (volts e) s) as [S R]. destruct (getTemps a nplog (volts e) s) as [s1 [[o i]|]]; [right|left; auto].
  split; [reflexivity|]. exists o, i. split; [reflexivity|]. cbn [fst snd] in *. cbv zeta. destruct S as (S1 & S2 & S3). rewrite S2.
  set (on := decideFan _ o i). destruct (setFan_same (now e) on s1 s (conj S1 (conj S2 S3))) as [Q1 Q2]. destruct (setFan (now e) on s1) as [s2 b] eqn:E2. cbn [fst snd] in *. rewrite <- Q2.
  assert (K : rows s2 = rows s1 /\ outs s2 = outs s1 /\ ins s2 = ins s1 /\ ys s2 = ys s1).
  { unfold setFan in E2. destruct (state s1) as [c|]; [destruct (Bool.eqb _ _); [|destruct (_ <? _)%Z]|]; injection E2 as <- <-; repeat split. }
  destruct K as (K1 & K2 & K3 & K4). split; [exact Q1|]. cbn. rewrite K1, R. auto.
Qed.

Definition spaced (w : list (Z * bool)) : Prop := forall l1 t1 b1 t2 b2 l2, w = l1 ++ (t1, b1) :: (t2, b2) :: l2 -> b2 = negb b1 /\ (seconds 300 <= t2 - t1)%Z.
(** the fan's state is that of the last write *)
Definition ok (s : fan) : Prop := exists w b, writes s = w ++ [(since s, b)] /\ state s = Some b.
Lemma spaced_snoc w t b t' : spaced (w ++ [(t, b)]) -> (seconds 300 <= t' - t)%Z -> spaced ((w ++ [(t, b)]) ++ [(t', negb b)]).
Proof.
  intros H L l1 t1 b1 t2 b2 l2 E. destruct (exists_last (l := (t2, b2) :: l2)) as (l3 & [t3 b3] & E3); [discriminate|].
  destruct l3 as [|c l3].
  - injection E3 as -> -> E3. subst l2. change (l1 ++ [(t1, b1); (t3, b3)]) with (l1 ++ [(t1, b1)] ++ [(t3, b3)]) in E. rewrite app_assoc in E. apply app_inj_tail in E as [E F]. apply app_inj_tail in E as [_ E]. injection E as <- <-. injection F as <- <-. auto.
  - injection E3 as <- E3. subst l2. change (l1 ++ (t1, b1) :: (t2, b2) :: l3 ++ [(t3, b3)]) with (l1 ++ ((t1, b1) :: (t2, b2) :: l3) ++ [(t3, b3)]) in E. rewrite app_assoc in E. apply app_inj_tail in E as [E _]. exact (H _ _ _ _ _ _ E).
Qed.
Lemma setFan_ok t on s : ok s -> ok (fst (setFan t on s)).
Proof.
  intros (w & b & W & B). unfold setFan. rewrite B. destruct (Bool.eqb on b) eqn:E; [exists w, b; auto|]. destruct (_ <? _)%Z eqn:L; [exists w, b; auto|]. exists (writes s), on. auto.
Qed.
Lemma setFan_spaced t on s : ok s -> spaced (writes s) -> spaced (writes (fst (setFan t on s))).
Proof.
  intros (w & b & W & B) S. unfold setFan. rewrite B. destruct (Bool.eqb on b) eqn:E; [exact S|]. destruct (_ <? _)%Z eqn:L; [exact S|]. apply Z.ltb_ge in L. cbn.
  replace on with (negb b) by (destruct on, b; try reflexivity; discriminate). rewrite W in *. apply spaced_snoc; [exact S|exact L].
Qed.
Lemma ok_same s s' : same s s' -> ok s' -> ok s. Proof. unfold ok. intros (A & B & C). rewrite A, B, C. auto. Qed.
Lemma round_inv a nplog s e : ok s -> spaced (writes s) -> ok (one_round a nplog s e) /\ spaced (writes (one_round a nplog s e)) /\
  (exists w, writes (one_round a nplog s e) = writes s ++ w).
Proof.
  intros O S. assert (AP : forall t on, exists w, writes (fst (setFan t on s)) = writes s ++ w).
  { intros t on. unfold setFan. destruct (state s); [destruct (Bool.eqb _ _); [|destruct (_ <? _)%Z]|]; cbn; eauto; exists []; symmetry; apply app_nil_r. }
  destruct (round_cases a nplog s e) as [(_ & ->)|[(_ & _ & ->)|(_ & o & i & _ & H & _)]].
  - split; [now apply setFan_ok|]. split; [now apply setFan_spaced|apply AP].
  - destruct (temps_same a nplog (volts e) s) as [Q _]. split; [now apply (ok_same _ s)|]. destruct Q as (_ & _ & ->). split; [exact S|]. exists []. symmetry. apply app_nil_r.
  - split; [eapply ok_same; [exact H|now apply setFan_ok]|]. destruct H as (_ & _ & ->). split; [now apply setFan_spaced|apply AP].
Qed.
Lemma start_ok t t' : let s := fst (setFan t' false (fan_init t)) in ok s /\ spaced (writes s) /\ writes s = [(t', false)] /\ rows s = [] /\ outs s = [] /\ ins s = [] /\ ys s = None.
Proof.
  cbv zeta. split; [exists [], false; auto|]. split; [|repeat split]. intros l1 t1 b1 t2 b2 l2 E. exfalso. cbn in E. destruct l1 as [|x [|y l1]]; discriminate E.
Qed.
Lemma fold_inv a nplog es s : ok s -> spaced (writes s) -> ok (fold_left (one_round a nplog) es s) /\ spaced (writes (fold_left (one_round a nplog) es s)) /\
  (exists w, writes (fold_left (one_round a nplog) es s) = writes s ++ w).
Proof.
  revert s. induction es as [|e es IH]; intros s O S; [split; [exact O|]; split; [exact S|]; exists []; symmetry; apply app_nil_r|]. cbn [fold_left].
  destruct (round_inv a nplog s e O S) as (O1 & S1 & w1 & W1). destruct (IH _ O1 S1) as (O2 & S2 & w2 & W2). split; [exact O2|]. split; [exact S2|]. exists (w1 ++ w2). now rewrite W2, W1, app_assoc.
Qed.
Lemma run_ok a nplog t t' es : ok (run a nplog t t' es) /\ spaced (writes (run a nplog t t' es)).
Proof. destruct (start_ok t t') as (O & S & _). destruct (fold_inv a nplog es _ O S) as (A & B & _). auto. Qed.
Lemma run_snoc a nplog t t' es e : run a nplog t t' (es ++ [e]) = one_round a nplog (run a nplog t t' es) e.
Proof. unfold run. now rewrite fold_left_app. Qed.

(** The first thing written is off, at the start.  Of two consecutive writes the later one is
    the opposite of the earlier one and at least 300 seconds later.  What the controller
    remembers is the last write *)
Theorem C101_spacing a nplog t t' es : let s := run a nplog t t' es in
  (exists w, writes s = (t', false) :: w) /\
  (forall l1 t1 b1 t2 b2 l2, writes s = l1 ++ (t1, b1) :: (t2, b2) :: l2 -> b2 = negb b1 /\ (seconds 300 <= t2 - t1)%Z) /\
  (exists w b, writes s = w ++ [(since s, b)] /\ state s = Some b).
Proof.
  cbv zeta. destruct (run_ok a nplog t t' es) as [A B]. split; [|split; [exact B|exact A]].
  destruct (start_ok t t') as (O & S & W & _). destruct (fold_inv a nplog es _ O S) as (_ & _ & w & E). rewrite W in E. exists w. exact E.
Qed.
(** A round writes at most once, at its time.  It switches the fan on only with a new row in
    the log whose inside temperature is above the outside one and at least 10 degrees *)
Theorem C101_write a nplog t t' es e : let s := run a nplog t t' es in let s' := run a nplog t t' (es ++ [e]) in
  writes s' = writes s \/
  writes s' = writes s ++ [(now e, false)] \/
  (writes s' = writes s ++ [(now e, true)] /\ online e = true /\ exists o i, rows s' = rows s ++ [(now e, o, i, true)] /\ fltb o i = true /\ fleb (fofZ 10) i = true).
Proof.
  cbv zeta. rewrite run_snoc. destruct (run_ok a nplog t t' es) as [(w & b & W & B) _]. set (s := run a nplog t t' es) in *.
  destruct (round_cases a nplog s e) as [(_ & ->)|[(_ & _ & ->)|(ON & o & i & _ & H & R & _)]].
  - unfold setFan. rewrite B. destruct (Bool.eqb false b); [auto|]. destruct (_ <? _)%Z; auto.
  - left. apply (temps_same a nplog (volts e) s).
  - destruct H as (_ & _ & ->). rewrite R. clear R. unfold setFan. rewrite B. destruct (decideFan b o i) eqn:D.
    + destruct b; [auto|]. cbn [Bool.eqb]. destruct (_ <? _)%Z; [auto|]. right. right. split; [reflexivity|]. split; [exact ON|]. exists o, i. split; [reflexivity|]. apply C100_cooling in D as (D1 & D2 & _). auto.
    + destruct (Bool.eqb false b); [auto|]. destruct (_ <? _)%Z; auto.
Qed.
(** A round with a sensor offline, 300 seconds or more after the last switching, leaves the
    fan off, and so do any number of offline rounds after it *)
Theorem C101_offline a nplog t t' es e es' : online e = false -> Forall (fun e => online e = false) es' ->
  (exists w t1 b, writes (run a nplog t t' es) = w ++ [(t1, b)] /\ (seconds 300 <= now e - t1)%Z) ->
  exists w t2, writes (run a nplog t t' (es ++ e :: es')) = w ++ [(t2, false)] /\ state (run a nplog t t' (es ++ e :: es')) = Some false.
Proof.
  intros OFF F (w & t1 & b & W & L). unfold run. rewrite fold_left_app. cbn [fold_left]. fold (run a nplog t t' es). destruct (run_ok a nplog t t' es) as [(w' & b' & W' & B) _]. set (s := run a nplog t t' es) in *.
  rewrite W in W'. apply app_inj_tail in W' as [<- W']. injection W' as -> ->.
  assert (G : forall s, (exists w t2, writes s = w ++ [(t2, false)] /\ state s = Some false) -> exists w t2, writes (fold_left (one_round a nplog) es' s) = w ++ [(t2, false)] /\ state (fold_left (one_round a nplog) es' s) = Some false).
  { clear - F. induction F as [|x es' X F IH]; intros s H; [exact H|]. cbn [fold_left]. apply IH. unfold one_round. rewrite X. destruct H as (w & t2 & W & B). unfold setFan. rewrite B. cbn. eauto. }
  apply G. unfold one_round. rewrite OFF. unfold setFan. rewrite B. destruct b'; cbn [Bool.eqb]; [|eauto].
  replace (now e - since s <? TRANSITION_TIME)%Z with false; [cbn; eauto|]. symmetry. apply Z.ltb_ge. exact L.
Qed.
(** A row of the log tells what the fan does after it; that is what its temperatures call for,
    unless the fan was switched less than 300 seconds before, and then it is as it was *)
Theorem C101_row a nplog t t' es e r : rows (run a nplog t t' (es ++ [e])) = rows (run a nplog t t' es) ++ [r] ->
  exists o i is_on w t1 b, r = (now e, o, i, is_on) /\ writes (run a nplog t t' es) = w ++ [(t1, b)] /\
    is_on = (if (now e - t1 <? seconds 300)%Z then b else decideFan b o i) /\
    exists w' t2, writes (run a nplog t t' (es ++ [e])) = w' ++ [(t2, is_on)].
Proof.
  rewrite run_snoc. destruct (run_ok a nplog t t' es) as [(w & b & W & B) _]. set (s := run a nplog t t' es) in *. intros R.
  assert (NO : forall l : list (Z * f64 * f64 * bool), rows s <> rows s ++ r :: l) by (intros l E; apply (f_equal (@length _)) in E; rewrite app_length in E; cbn in E; lia).
  destruct (round_cases a nplog s e) as [(_ & E)|[(_ & _ & E)|(_ & o & i & _ & H & E & _)]].
  - exfalso. rewrite E in R. apply (NO []). rewrite <- R. unfold setFan. rewrite B. destruct (Bool.eqb false b); [reflexivity|]. destruct (_ <? _)%Z; reflexivity.
  - exfalso. rewrite E in R. apply (NO []). rewrite <- R. symmetry. apply temps_same.
  - rewrite E in R. apply app_inj_tail in R as [_ R]. exists o, i, (snd (setFan (now e) (decideFan b o i) s)), w, (since s), b. rewrite B in R. split; [now symmetry|]. split; [exact W|]. destruct H as (_ & _ & ->). rewrite B.
    unfold setFan. rewrite B. change (seconds 300) with TRANSITION_TIME. destruct (Bool.eqb (decideFan b o i) b) eqn:Q.
    + apply eqb_prop in Q. rewrite Q. split; [now destruct (_ <? _)%Z|]. cbn. eauto.
    + destruct (_ <? _)%Z; (split; [reflexivity|]); cbn; eauto.
Qed.

(** The outputs of the filter for a list of samples of one channel, from its state *)
Fixpoint filtered (a : f64) (y : f64) (vs : list f64) : list f64 :=
  match vs with [] => [] | v :: vs => let y := fadd v (fmul a y) in fmul (fsub fone a) y :: filtered a y vs end.
(** From the start: the first sample is fed ten thousand times beforehand *)
Definition outputs (a : f64) (vs : list f64) : list f64 :=
  match vs with [] => [] | v :: _ => filtered a (Nat.iter (100 * 100) (fun y => fadd v (fmul a y)) fzero) vs end.
(** The samples of the rounds in which both sensors are online and both give a value *)
Definition samples (es : list tick) : list (f64 * f64) :=
  flat_map (fun e => match online e, volts e with true, (Some v0, Some v1) => [(v0, v1)] | _, _ => [] end) es.
Fixpoint last_y (a y : f64) (vs : list f64) : f64 := match vs with [] => y | v :: vs => last_y a (fadd v (fmul a y)) vs end.
Lemma filtered_app a y vs v : filtered a y (vs ++ [v]) = filtered a y vs ++ [fmul (fsub fone a) (fadd v (fmul a (last_y a y vs)))].
Proof. revert y. induction vs as [|x vs IH]; intros y; cbn; [reflexivity|]. now rewrite IH. Qed.
Lemma last_y_app a y vs v : last_y a y (vs ++ [v]) = fadd v (fmul a (last_y a y vs)).
Proof. revert y. induction vs as [|x vs IH]; intros y; cbn; [reflexivity|]. apply IH. Qed.
Lemma filtered_length a y vs : length (filtered a y vs) = length vs.
Proof. revert y. induction vs as [|x vs IH]; intros y; cbn; [reflexivity|]. now rewrite IH. Qed.
Lemma iter_comm {A} (f : A -> A) n x : f (Nat.iter n f x) = Nat.iter n f (f x).
Proof. induction n as [|n IH]; [reflexivity|]. change (f (f (Nat.iter n f x)) = f (Nat.iter n f (f x))). now rewrite IH. Qed.
Lemma settle_iter a x n y : settle f64 fadd fmul n a x y = Nat.iter n (fun y => fadd x (fmul a y)) y.
Proof. revert y. induction n as [|n IH]; intros y; [reflexivity|]. cbn [settle]. rewrite IH. unfold iir_step. symmetry. exact (iter_comm (fun y => fadd x (fmul a y)) n y). Qed.
(** the state of a channel after samples *)
Definition chan (a : f64) (vs : list f64) : option f64 :=
  match vs with [] => None | v :: _ => Some (last_y a (Nat.iter N_settle (fun y => fadd v (fmul a y)) fzero) vs) end.
Lemma chan_snoc a vs v : chan a (vs ++ [v]) = Some (iir_next f64 fadd fmul fzero N_settle a v (chan a vs)).
Proof.
  unfold iir_next, iir_step. destruct vs as [|u vs]; cbn [app chan].
  - rewrite settle_iter. reflexivity.
  - change (u :: vs ++ [v]) with ((u :: vs) ++ [v]). now rewrite last_y_app.
Qed.
Lemma outputs_snoc a vs v : outputs a (vs ++ [v]) = outputs a vs ++ [iir_out a (iir_next f64 fadd fmul fzero N_settle a v (chan a vs))].
Proof.
  unfold iir_next, iir_step, iir_out, outputs. change (100 * 100)%nat with N_settle. destruct vs as [|u vs]; cbn [app chan].
  - rewrite settle_iter. reflexivity.
  - change (u :: vs ++ [v]) with ((u :: vs) ++ [v]). now rewrite filtered_app.
Qed.
Local Opaque N_settle.
(** the temperatures of all samples so far *)
Definition temps (a : f64) (nplog : f64 -> f64) (inside : bool) (vs : list f64) : list f64 := map (v2t nplog inside) (outputs a vs).
Lemma temps_snoc a nplog c vs v : temps a nplog c (vs ++ [v]) = temps a nplog c vs ++ [v2t nplog c (iir_out a (iir_next f64 fadd fmul fzero N_settle a v (chan a vs)))].
Proof. unfold temps. now rewrite outputs_snoc, map_app. Qed.
Lemma outputs_length a vs : length (outputs a vs) = length vs. Proof. unfold outputs. destruct vs; [reflexivity|]. apply filtered_length. Qed.

(** the k-th batch of 300 *)
Definition batch (k : nat) (l : list f64) : list f64 := firstn 300 (skipn (300 * k) l).
(** their sum divided by 300 *)
Definition average (l : list f64) : f64 := fdiv (fold_left fadd l fzero) (fofZ 300).
Definition logged (a : f64) (nplog : f64 -> f64) (es : list tick) (k : nat) : f64 * f64 :=
  (average (batch k (temps a nplog false (map fst (samples es)))), average (batch k (temps a nplog true (map snd (samples es))))).
Definition reads (s : fan) (a : f64) (nplog : f64 -> f64) (vs : list (f64 * f64)) : Prop :=
  let n := length (rows s) in
  (300 * n <= length vs < 300 * n + 300)%nat /\
  option_map fst (ys s) = chan a (map fst vs) /\ option_map snd (ys s) = chan a (map snd vs) /\
  outs s = skipn (300 * n) (temps a nplog false (map fst vs)) /\ ins s = skipn (300 * n) (temps a nplog true (map snd vs)) /\
  map (fun r => (snd (fst (fst r)), snd (fst r))) (rows s) =
    map (fun k => (mean (batch k (temps a nplog false (map fst vs))), mean (batch k (temps a nplog true (map snd vs))))) (seq 0 n).
Lemma temps_length a nplog c vs : length (temps a nplog c vs) = length vs. Proof. unfold temps. now rewrite map_length, outputs_length. Qed.
Lemma skipn_snoc {A} n (l : list A) x : (n <= length l)%nat -> skipn n (l ++ [x]) = skipn n l ++ [x].
Proof. intros H. rewrite skipn_app. replace (n - length l)%nat with O by lia. reflexivity. Qed.
Lemma batch_snoc k l x : (300 * k + 300 <= length l)%nat -> batch k (l ++ [x]) = batch k l.
Proof. intros H. unfold batch. rewrite skipn_app, firstn_app. rewrite skipn_length. replace (300 - (length l - 300 * k))%nat with O by lia. cbn [firstn]. apply app_nil_r. Qed.
Lemma keep_batches a nplog vs v n : (300 * n <= length vs)%nat ->
  map (fun k => (mean (batch k (temps a nplog false (map fst (vs ++ [v])))), mean (batch k (temps a nplog true (map snd (vs ++ [v])))))) (seq 0 n) =
  map (fun k => (mean (batch k (temps a nplog false (map fst vs))), mean (batch k (temps a nplog true (map snd vs))))) (seq 0 n).
Proof.
  intros H. apply map_ext_in. intros k K. apply in_seq in K. rewrite !map_app. cbn [map]. rewrite !temps_snoc, !batch_snoc; [reflexivity| |]; rewrite temps_length, map_length; lia.
Qed.
Lemma set_keeps t on s : rows (fst (setFan t on s)) = rows s /\ ys (fst (setFan t on s)) = ys s /\ outs (fst (setFan t on s)) = outs s /\ ins (fst (setFan t on s)) = ins s.
Proof. unfold setFan. destruct (state s); [destruct (Bool.eqb _ _); [|destruct (_ <? _)%Z]|]; repeat split. Qed.
Lemma round_reads a nplog s e vs : reads s a nplog vs -> reads (one_round a nplog s e) a nplog (vs ++ samples [e]).
Proof.
  intros H. destruct (online e) eqn:ON.
  2:{ unfold one_round, samples. rewrite ON. cbn [flat_map app]. rewrite ON, app_nil_r. destruct (set_keeps (now e) false s) as (A & B & C & D). unfold reads. rewrite A, B, C, D. exact H. }
  destruct (volts e) as [[v0|] [v1|]] eqn:V; try (unfold one_round, samples; cbn [flat_map app]; rewrite ON, V, app_nil_r; exact H).
  assert (SE : samples [e] = [(v0, v1)]) by (unfold samples; cbn [flat_map app]; now rewrite ON, V). rewrite SE.
  destruct H as (L & Y0 & Y1 & OU & IN & RW). set (n := length (rows s)) in *.
  assert (T0 : forall c p, skipn (300 * n) (temps a nplog c (map p (vs ++ [(v0, v1)]))) = skipn (300 * n) (temps a nplog c (map p vs)) ++ [v2t nplog c (iir_out a (iir_next f64 fadd fmul fzero N_settle a (p (v0, v1)) (chan a (map p vs))))]).
  { intros c p. rewrite map_app. cbn [map]. rewrite temps_snoc. apply skipn_snoc. rewrite temps_length, map_length. lia. }
  set (o1 := v2t nplog false (iir_out a (iir_next f64 fadd fmul fzero N_settle a v0 (chan a (map fst vs))))) in *.
  set (i1 := v2t nplog true (iir_out a (iir_next f64 fadd fmul fzero N_settle a v1 (chan a (map snd vs))))) in *.
  assert (GT : getTemps a nplog (volts e) s =
    let y := Some (iir_next f64 fadd fmul fzero N_settle a v0 (chan a (map fst vs)), iir_next f64 fadd fmul fzero N_settle a v1 (chan a (map snd vs))) in
    if Nat.ltb (length (outs s ++ [o1])) N_READINGS then (mkFan (since s) (state s) y (outs s ++ [o1]) (ins s ++ [i1]) (writes s) (rows s), None)
    else (mkFan (since s) (state s) y [] [] (writes s) (rows s), Some (mean (outs s ++ [o1]), mean (ins s ++ [i1])))).
  { rewrite V. unfold getTemps. rewrite Y0, Y1. reflexivity. }
  assert (LO : length (outs s) = (length vs - 300 * n)%nat) by (rewrite OU, skipn_length, temps_length, map_length; reflexivity).
  rewrite app_length, LO in GT. cbn [length] in GT. cbv zeta in GT. change N_READINGS with 300%nat in GT.
  assert (C0 : chan a (map fst (vs ++ [(v0, v1)])) = Some (iir_next f64 fadd fmul fzero N_settle a v0 (chan a (map fst vs)))) by (rewrite map_app; apply chan_snoc).
  assert (C1 : chan a (map snd (vs ++ [(v0, v1)])) = Some (iir_next f64 fadd fmul fzero N_settle a v1 (chan a (map snd vs)))) by (rewrite map_app; apply chan_snoc).
  destruct (round_cases a nplog s e) as [(X & _)|[(_ & E & R)|(_ & o & i & E & _ & R & E1 & E2 & E3)]]; [congruence| |].
  - rewrite GT in E, R. destruct (Nat.ltb (length vs - 300 * n + 1) 300) eqn:Q; [|discriminate E]. apply Nat.ltb_lt in Q. rewrite R. cbn [fst]. unfold reads. cbn [rows ys outs ins]. fold n. rewrite app_length. cbn [length].
    split; [lia|]. rewrite C0, C1. split; [reflexivity|]. split; [reflexivity|]. rewrite OU, IN. split; [symmetry; exact (T0 false fst)|]. split; [symmetry; exact (T0 true snd)|].
    rewrite keep_batches by lia. exact RW.
  - rewrite GT in E, E1, E2, E3. destruct (Nat.ltb (length vs - 300 * n + 1) 300) eqn:Q; [discriminate E|]. apply Nat.ltb_ge in Q. cbn [fst snd ys outs ins] in *. injection E as <- <-.
    unfold reads. rewrite R, E1, E2, E3. rewrite !app_length. fold n. cbn [length]. split; [lia|]. rewrite C0, C1. split; [reflexivity|]. split; [reflexivity|].
    assert (Z : forall c p, skipn (300 * (n + 1)) (temps a nplog c (map p (vs ++ [(v0, v1)]))) = []) by (intros c p; apply skipn_all2; rewrite temps_length, map_length, app_length; cbn [length]; lia).
    split; [symmetry; exact (Z false fst)|]. split; [symmetry; exact (Z true snd)|].
    replace (n + 1)%nat with (S n) by lia. rewrite seq_S, !map_app. cbn [map fst snd Nat.add].
    f_equal; [etransitivity; [exact RW|]; rewrite <- (keep_batches a nplog vs (v0, v1) n) by lia; rewrite !map_app; reflexivity|].
    assert (BT : forall l : list f64, (length l = 300 * n + 300)%nat -> batch n l = skipn (300 * n) l) by (intros l HL; unfold batch; apply firstn_all2; rewrite skipn_length; lia).
    pose proof (T0 false fst) as TF. pose proof (T0 true snd) as TT. rewrite map_app in TF, TT. cbn [map fst snd] in TF, TT.
    rewrite !BT by (rewrite temps_length, app_length, map_length; cbn [length]; lia). rewrite TF, TT, OU, IN. reflexivity.
Qed.
(** There is one row in the log for every 300 samples, and its temperatures are the means of
    those of the 300 samples, filtered from the first one on *)
Theorem C101_log a nplog t t' es : let s := run a nplog t t' es in
  length (rows s) = (length (samples es) / 300)%nat /\
  map (fun r => (snd (fst (fst r)), snd (fst r))) (rows s) = map (logged a nplog es) (seq 0 (length (rows s))).
Proof.
  cbv zeta. assert (G : reads (run a nplog t t' es) a nplog (samples es)).
  { destruct (start_ok t t') as (_ & _ & _ & R & O & I & Y). induction es as [|e es IH] using rev_ind.
    - unfold run. cbn [fold_left]. unfold reads. rewrite R, O, I, Y. cbn. repeat split; lia.
    - rewrite run_snoc. unfold samples at 1. rewrite flat_map_app. apply round_reads. exact IH. }
  destruct G as (L & _ & _ & _ & _ & RW). split.
  2:{ rewrite RW. apply map_ext_in. intros k K. apply in_seq in K. unfold logged, average, mean.
      assert (BL : forall c l, length l = length (samples es) -> length (batch k (temps a nplog c l)) = 300%nat) by (intros c l HL; unfold batch; rewrite firstn_length, skipn_length, temps_length; lia).
      rewrite !BL by apply map_length. reflexivity. }
  apply Nat.div_unique with (r := (length (samples es) - 300 * length (rows (run a nplog t t' es)))%nat); lia.
Qed.
(** A day at the window: warm inside, the fan goes on; a sensor unplugged, it goes off *)
Definition ex_a : f64 := flit 1 (-1).
Definition ex_tick (k : nat) : tick := mkTick true (Some (fofZ 1), Some (fofZ 5)) (seconds (2 * Z.of_nat k)).
Definition ex_day : list tick := map ex_tick (seq 1 300) ++ [mkTick false (None, None) (seconds 899); mkTick false (None, None) (seconds 900)].
Example C101_ex : let s := run ex_a (fun x => x) 0%Z 0%Z ex_day in
  writes s = [(0%Z, false); (seconds 600, true); (seconds 900, false)] /\ length (rows s) = 1%nat /\ length (samples ex_day) = 300%nat.
Proof. vm_compute. repeat split; reflexivity. Qed.
Example C101_offline_ex : let s := run ex_a (fun x => x) 0%Z 0%Z (firstn 301 ex_day) in writes s = [(0%Z, false)] ++ [(seconds 600, true)] /\ (seconds 300 <= seconds 900 - seconds 600)%Z.
Proof. split; [vm_compute; reflexivity|]. vm_compute. discriminate. Qed.
Example C101_row_ex : let es := firstn 299 ex_day in length (rows (run ex_a (fun x => x) 0%Z 0%Z (es ++ [ex_tick 300]))) = S (length (rows (run ex_a (fun x => x) 0%Z 0%Z es))).
Proof. vm_compute. reflexivity. Qed.
(** Ending the loop does not switch the fan off: it may be left running *)
Theorem C101_end_refuted : ~ (forall a nplog t t' es, state (run a nplog t t' es) = Some false).
Proof. intros H. specialize (H ex_a (fun x => x) 0%Z 0%Z (firstn 300 ex_day)). vm_compute in H. discriminate H. Qed.

(** ** C102: filtering and conversion *)
(** The outputs of the filter for a list of samples of one channel, in exact arithmetic; the
    first sample is fed n times beforehand *)
Fixpoint filter_outs (n : nat) (a : R) (y : option R) (vs : list R) : list R :=
  match vs with [] => [] | v :: vs => let y := iir_next R Rplus Rmult 0 n a v y in (1 - a) * y :: filter_outs n a (Some y) vs end.
Lemma settle_R n a x y : a <> 1 -> settle R Rplus Rmult n a x y = x * (1 - a ^ n) / (1 - a) + a ^ n * y.
Proof. intros A. revert y. induction n as [|n IH]; intros y; cbn [settle pow]; [field; lra|]. rewrite IH. unfold iir_step. field. lra. Qed.
Lemma step_R n a x y : a <> 1 -> (1 - a) * iir_next R Rplus Rmult 0 n a x (Some y) = x + a * ((1 - a) * y - x).
Proof. intros A. unfold iir_next, iir_step. ring. Qed.
Lemma first_R n a x : a <> 1 -> (1 - a) * iir_next R Rplus Rmult 0 n a x None = x * (1 - a ^ S n).
Proof. intros A. unfold iir_next, iir_step. rewrite settle_R by exact A. cbn [pow]. field. lra. Qed.
Lemma mix a l h x y : 0 <= a < 1 -> l <= x <= h -> l <= y <= h -> l <= x + a * (y - x) <= h.
Proof.
  intros A X Y. assert (0 <= (1 - a) * (x - l)) by (apply Rmult_le_pos; lra). assert (0 <= a * (y - l)) by (apply Rmult_le_pos; lra).
  assert (0 <= (1 - a) * (h - x)) by (apply Rmult_le_pos; lra). assert (0 <= a * (h - y)) by (apply Rmult_le_pos; lra). lra.
Qed.
(** No output is above the highest sample, nor, but for what is left of the initial zero,
    below the lowest *)
Theorem C102_range n a lo hi vs : 0 <= a < 1 -> 0 <= lo -> Forall (fun v => lo <= v <= hi) vs ->
  Forall (fun o => (1 - a ^ S n) * lo <= o <= hi) (filter_outs n a None vs).
Proof.
  intros A L F. assert (P : 0 <= a ^ S n <= 1). { split; [apply pow_le; lra|]. rewrite <- (pow1 (S n)). apply pow_incr. lra. } set (p := a ^ S n) in *.
  assert (G : forall vs, Forall (fun v => lo <= v <= hi) vs -> forall y, (1 - p) * lo <= (1 - a) * y <= hi -> Forall (fun o => (1 - p) * lo <= o <= hi) (filter_outs n a (Some y) vs)).
  { clear vs F. intros vs F. induction F as [|v vs V F IH]; intros y Y; [constructor|]. cbn [filter_outs]. cbv zeta.
    assert (Z : (1 - p) * lo <= (1 - a) * iir_next R Rplus Rmult 0 n a v (Some y) <= hi) by (rewrite step_R by lra; apply mix; [lra|nra|exact Y]). constructor; [exact Z|]. now apply IH. }
  destruct F as [|v vs V F]; [constructor|]. cbn [filter_outs]. cbv zeta.
  assert (Z : (1 - p) * lo <= (1 - a) * iir_next R Rplus Rmult 0 n a v None <= hi) by (rewrite first_R by lra; fold p; nra). constructor; [exact Z|].
  exact (G vs F _ Z).
Qed.
Example C102_range_ex : 0 <= / 2 < 1 /\ Forall (fun v => 1 <= v <= 3) [1; 3; 2]. Proof. split; [lra|]. repeat apply Forall_cons; try apply Forall_nil; cbv beta; lra. Qed.
(** A sample repeated from the start comes out as itself but for what is left of the zero *)
Theorem C102_constant n a x m k : a <> 1 -> (k < m)%nat -> nth_error (filter_outs n a None (repeat x m)) k = Some (x * (1 - a ^ (S n + k))).
Proof.
  intros A. assert (G : forall m k j y, (1 - a) * y = x * (1 - a ^ j) -> (k < m)%nat -> nth_error (filter_outs n a (Some y) (repeat x m)) k = Some (x * (1 - a ^ (S j + k)))).
  { clear m k. induction m as [|m IH]; intros k j y Y K; [lia|]. cbn [repeat filter_outs]. cbv zeta.
    assert (Z : (1 - a) * iir_next R Rplus Rmult 0 n a x (Some y) = x * (1 - a ^ S j)) by (rewrite step_R by exact A; rewrite Y; cbn [pow]; ring).
    destruct k as [|k]; cbn [nth_error]; [rewrite Z, Nat.add_0_r; reflexivity|]. rewrite (IH k (S j) _ Z) by lia. do 4 f_equal. lia. }
  intros K. destruct m as [|m]; [lia|]. cbn [repeat filter_outs]. cbv zeta. destruct k as [|k]; cbn [nth_error]; [rewrite first_R by exact A; rewrite Nat.add_0_r; reflexivity|].
  rewrite (G m k (S n) _ (first_R n a x A)) by lia. do 4 f_equal. lia.
Qed.
Example C102_constant_ex : (/ 2 <> 1 /\ 3 < 5)%R /\ (3 < 5)%nat. Proof. repeat split; lra || lia. Qed.
(** After a change the output approaches the new sample by the factor a at each step *)
Theorem C102_step n a vs x m k o : a <> 1 -> (k < m)%nat -> last (map Some (filter_outs n a None vs)) None = Some o ->
  nth_error (filter_outs n a None (vs ++ repeat x m)) (length vs + k) = Some (x + a ^ S k * (o - x)).
Proof.
  intros A K. assert (G : forall m k y, (k < m)%nat -> nth_error (filter_outs n a (Some y) (repeat x m)) k = Some (x + a ^ S k * ((1 - a) * y - x))).
  { clear. induction m as [|m IH]; intros k y K; [lia|]. cbn [repeat filter_outs]. cbv zeta. destruct k as [|k]; cbn [nth_error].
    - f_equal. unfold iir_next, iir_step. ring.
    - rewrite IH by lia. f_equal. unfold iir_next, iir_step. cbn [pow]. ring. }
  assert (H : forall vs y, last (map Some (filter_outs n a y vs)) (option_map (fun y => (1 - a) * y) y) = Some o ->
     (y <> None \/ vs <> []) -> nth_error (filter_outs n a y (vs ++ repeat x m)) (length vs + k) = Some (x + a ^ S k * (o - x))).
  { clear vs. induction vs as [|v vs IH]; intros y E N.
    - cbn in E. destruct y as [y|]; [|destruct N; congruence]. cbn in E. injection E as <-. cbn [app length]. rewrite Nat.add_0_l. now apply G.
    - cbn [filter_outs app length] in *. cbv zeta in *. rewrite Nat.add_succ_l. cbn [nth_error]. apply IH; [|left; discriminate]. rewrite <- E. cbn [map]. set (f := filter_outs _ _ _ _). destruct f as [|z l]; [reflexivity|].
      cbn [map last option_map]. clear. revert z. induction l as [|w l IH]; intros z; [reflexivity|]. cbn [map]. cbn [last]. exact (IH w). }
  intros E. destruct vs as [|v vs]; [discriminate|]. apply H; [exact E|]. right. discriminate.
Qed.
Example C102_step_ex : last (map Some (filter_outs 0 (/ 2) None [4])) None = Some ((1 - / 2) * (4 + / 2 * 0)) /\ / 2 <> 1. Proof. split; [reflexivity|lra]. Qed.

(** A higher voltage never gives a lower temperature, from 0 to 23 volts *)
Lemma fmul_pos_mono c x y : isfin c = true -> 0 < B2R c -> fleb x y = true -> fleb (fmul c x) (fmul c y) = true.
Proof.
  intros F P L. apply fleb_spec in L as (Nx & Ny & L).
  assert (I : fmul c finf = finf /\ fmul c fninf = fninf). { destruct c as [s|s| |s m e H]; try discriminate F; [cbn in P; lra|]. destruct s; [|split; reflexivity]. exfalso. revert P. apply Rle_not_lt. apply F2R_le_0. cbn. lia. }
  destruct I as [I1 I2]. apply fleb_spec. destruct (isfin_cases x Nx) as [Fx|[->| ->]]; destruct (isfin_cases y Ny) as [Fy|[->| ->]]; rewrite ?I1, ?I2, ?key_pinf, ?key_ninf in *.
  - destruct (fmul_key c x F Fx) as [A K]. destruct (fmul_key c y F Fy) as [B J]. rewrite A, B, K, J. split; [reflexivity|]. split; [reflexivity|]. apply crnd_mono. rewrite (key_fin _ Fx), (key_fin _ Fy) in L. nra.
  - destruct (fmul_key c x F Fx) as [A K]. rewrite A. split; [reflexivity|]. split; [reflexivity|]. apply key_bound.
  - exfalso. rewrite (key_fin _ Fx) in L. generalize (fin_bound x). lra.
  - exfalso. rewrite (key_fin _ Fy) in L. generalize (fin_bound y). lra.
  - repeat split; lra.
  - exfalso. generalize big_pos. lra.
  - destruct (fmul_key c y F Fy) as [A K]. rewrite A. split; [reflexivity|]. split; [reflexivity|]. apply key_bound.
  - split; [reflexivity|]. split; [reflexivity|]. generalize big_pos. lra.
  - repeat split; lra.
Qed.
Theorem C102_increasing nplog inside v v' : (forall x y, fleb fzero x = true -> fleb x y = true -> fleb (nplog x) (nplog y) = true) ->
  fleb fzero v = true -> fleb v v' = true -> fleb v' (fofZ 23) = true -> fleb (v2t nplog inside v) (v2t nplog inside v') = true.
Proof.
  intros M V0 VV V1. unfold v2t. destruct (coeffs inside) as [[a0 a1] Rs] eqn:EC.
  assert (C : (isfin a0 = true /\ isfin a1 = true /\ isfin Rs = true) /\ fleb (flit 1 (-2)) a0 = true /\ fleb a0 fone = true /\ fleb fone a1 = true /\ fleb fone Rs = true /\ fleb Rs (fofZ 16) = true).
  { assert (T : let '(a0, a1, Rs) := coeffs inside in isfin a0 && isfin a1 && isfin Rs && fleb (flit 1 (-2)) a0 && fleb a0 fone && fleb fone a1 && fleb fone Rs && fleb Rs (fofZ 16) = true) by (destruct inside; vm_compute; reflexivity).
    rewrite EC in T. rewrite !andb_true_iff in T. tauto. }
  clear EC. destruct C as ((F0 & F1 & FR) & A1 & A2 & A3 & A4 & A5).
  apply fleb_spec in A1 as (_ & _ & A1), A2 as (_ & _ & A2), A3 as (_ & _ & A3), A4 as (_ & _ & A4), A5 as (_ & _ & A5).
  destruct (flit_val 1 (-2) eq_refl) as [FQ VQ]; [lia|]. rewrite (key_fin _ FQ), VQ in A1. rewrite key_fone in *. rewrite (key_fofZ 16 eq_refl) in A5. rewrite (key_fin _ F0) in *. rewrite (key_fin _ F1) in *. rewrite (key_fin _ FR) in *.
  apply fleb_spec in V0 as (_ & N & V0), VV as (_ & N' & VV), V1 as (_ & _ & V1). rewrite key_fzero in V0. rewrite (key_fofZ 23 eq_refl) in V1.
  assert (FP : isfin Vp = true) by (vm_compute; reflexivity). assert (KP : B2R Vp >= 23.25 /\ B2R Vp <= 24).
  { assert (T : fleb (flit 93 (-2)) Vp = true /\ fleb Vp (fofZ 24) = true) by (vm_compute; split; reflexivity). destruct T as [T1 T2]. apply fleb_spec in T1 as (_ & _ & T1), T2 as (_ & _ & T2).
    destruct (flit_val 93 (-2) eq_refl) as [FF VF]; [lia|]. rewrite (key_fin _ FF), VF, (key_fin _ FP) in T1. rewrite (key_fin _ FP), (key_fofZ 24 eq_refl) in T2. change (bpow radix2 (-2)) with (/ 4) in T1. split; lra. }
  assert (FB : 1024 < big) by (apply (bpow_lt radix2 10 1024); lia).
  assert (Fv : isfin v = true) by (apply fin_key; [exact N|lra]). assert (Fv' : isfin v' = true) by (apply fin_key; [exact N'|lra]). rewrite (key_fin _ Fv), (key_fin _ Fv') in *.
  assert (C1024 : crnd 1024 = 1024) by (change 1024 with (bpow radix2 10); apply crnd_bpow; lia).
  assert (C16 : crnd (/ 16) = / 16) by (change (/ 16) with (bpow radix2 (-4)); apply crnd_bpow; lia).
  assert (C4 : crnd (/ 4) = / 4) by (change (/ 4) with (bpow radix2 (-2)); apply crnd_bpow; lia).
  assert (Q : forall u, isfin u = true -> 0 <= B2R u <= 23 ->
    (isfin (fmul Rs u) = true /\ B2R (fmul Rs u) = crnd (B2R Rs * B2R u) /\ 0 <= B2R (fmul Rs u)) /\
    (isfin (fmul a0 (fsub Vp u)) = true /\ B2R (fmul a0 (fsub Vp u)) = crnd (B2R a0 * crnd (B2R Vp - B2R u)) /\ / 16 <= B2R (fmul a0 (fsub Vp u)))).
  { intros u Fu U. split.
    - destruct (fmul_key Rs u FR Fu) as [X K]. assert (B : 0 <= crnd (B2R Rs * B2R u) <= 1024) by (split; [apply crnd_ge0; nra|rewrite <- C1024; apply crnd_mono; nra]).
      assert (FF : isfin (fmul Rs u) = true) by (apply fin_key; [exact X|lra]). rewrite (key_fin _ FF) in K. rewrite K. repeat split; [exact FF|lra].
    - destruct (fsub_key Vp u FP Fu) as [X K]. assert (B : / 4 <= crnd (B2R Vp - B2R u) <= 1024) by (split; [rewrite <- C4; apply crnd_mono; lra|rewrite <- C1024; apply crnd_mono; lra]).
      assert (FF : isfin (fsub Vp u) = true) by (apply fin_key; [exact X|lra]). rewrite (key_fin _ FF) in K.
      destruct (fmul_key a0 _ F0 FF) as [Y J]. rewrite K in J. change (bpow radix2 (-2)) with (/ 4) in A1. assert (B' : / 16 <= crnd (B2R a0 * crnd (B2R Vp - B2R u)) <= 1024) by (split; [rewrite <- C16; apply crnd_mono; nra|rewrite <- C1024; apply crnd_mono; nra]).
      assert (FG : isfin (fmul a0 (fsub Vp u)) = true) by (apply fin_key; [exact Y|lra]). rewrite (key_fin _ FG) in J. rewrite J. repeat split; [exact FG|lra]. }
  destruct (Q v Fv) as ((X1 & X2 & X3) & (X4 & X5 & X6)); [lra|]. destruct (Q v' Fv') as ((Y1 & Y2 & Y3) & (Y4 & Y5 & Y6)); [lra|].
  apply fmul_pos_mono; [exact F1|lra|]. destruct (fdiv_key _ _ X1 X4) as [D K]; [lra|]. destruct (fdiv_key _ _ Y1 Y4) as [D' K']; [lra|]. apply M; apply fleb_spec; rewrite ?D, ?D', ?K, ?K', ?key_fzero; split; try reflexivity; split; try reflexivity.
  - apply crnd_ge0. apply Rmult_le_pos; [exact X3|]. left. apply Rinv_0_lt_compat. lra.
  - apply crnd_mono. apply Rmult_le_compat; [exact X3|left; apply Rinv_0_lt_compat; lra| |].
    + rewrite X2, Y2. apply crnd_mono. nra.
    + apply Rinv_le; [lra|]. rewrite X5, Y5. apply crnd_mono. apply Rmult_le_compat_l; [change (bpow radix2 (-2)) with (/ 4) in A1; lra|]. apply crnd_mono. lra.
Qed.
Example C102_increasing_ex : fleb fzero (fofZ 1) = true /\ fleb (fofZ 1) (fofZ 5) = true /\ fleb (fofZ 5) (fofZ 23) = true /\
  (forall x y, fleb fzero x = true -> fleb x y = true -> fleb ((fun z => z) x) ((fun z => z) y) = true) /\ fltb (v2t (fun z => z) true (fofZ 1)) (v2t (fun z => z) true (fofZ 5)) = true.
Proof. repeat split; try (vm_compute; reflexivity). intros x y _ H. exact H. Qed.

(** After a voltage that is NaN the fan is never switched on any more: the filter keeps it *)
Lemma add_nan x y : isnan x = true \/ isnan y = true -> isnan (fadd x y) = true. Proof. intros [H|H]; destruct x as [[]|[]| |[]], y as [[]|[]| |[]]; try discriminate H; reflexivity. Qed.
Lemma mul_nan x y : isnan x = true \/ isnan y = true -> isnan (fmul x y) = true. Proof. intros [H|H]; destruct x as [[]|[]| |[]], y as [[]|[]| |[]]; try discriminate H; reflexivity. Qed.
Lemma sub_nan x y : isnan x = true \/ isnan y = true -> isnan (fsub x y) = true. Proof. intros [H|H]; destruct x as [[]|[]| |[]], y as [[]|[]| |[]]; try discriminate H; reflexivity. Qed.
Lemma div_nan x y : isnan x = true \/ isnan y = true -> isnan (fdiv x y) = true. Proof. intros [H|H]; destruct x as [[]|[]| |[]], y as [[]|[]| |[]]; try discriminate H; reflexivity. Qed.
Lemma mean_nan l : Exists (fun x => isnan x = true) l -> isnan (mean l) = true.
Proof.
  intros H. unfold mean. apply div_nan. left. enough (G : forall acc, isnan acc = true \/ Exists (fun x => isnan x = true) l -> isnan (fold_left fadd l acc) = true) by (apply G; auto).
  clear H. induction l as [|x l IH]; intros acc [H|H]; cbn [fold_left]; try exact H; try (inversion H; fail).
  - apply IH. left. apply add_nan. auto.
  - inversion H; subst; apply IH; [left; apply add_nan; auto|auto].
Qed.
Definition poisoned (s : fan) : Prop :=
  match ys s with Some (y0, y1) => (isnan y0 = true /\ (outs s = [] \/ Exists (fun x => isnan x = true) (outs s))) \/ (isnan y1 = true /\ (ins s = [] \/ Exists (fun x => isnan x = true) (ins s))) | None => False end.
Section Nan.
Variables (a : f64) (nplog : f64 -> f64).
Hypothesis LN : forall x, isnan x = true -> isnan (nplog x) = true.
Lemma reading_nan inside y : isnan y = true -> isnan (v2t nplog inside (iir_out a y)) = true.
Proof. intros H. unfold v2t. destruct (coeffs inside) as [[a0 a1] Rs]. apply mul_nan. right. apply LN. apply div_nan. left. apply mul_nan. right. apply mul_nan. auto. Qed.
Lemma next_nan v y : isnan v = true \/ (exists y', y = Some y' /\ isnan y' = true) -> isnan (iir_next f64 fadd fmul fzero N_settle a v y) = true.
Proof. intros [H|(y' & -> & H)]; unfold iir_next, iir_step; apply add_nan; [auto|]. right. apply mul_nan. auto. Qed.
Lemma nan_round s e : (poisoned s \/ (online e = true /\ exists v0 v1, volts e = (Some v0, Some v1) /\ (isnan v0 = true \/ isnan v1 = true))) ->
  poisoned (one_round a nplog s e) /\ (writes (one_round a nplog s e) = writes s \/ writes (one_round a nplog s e) = writes s ++ [(now e, false)] \/ state s = None).
Proof.
  intros H. assert (SF : forall on, (on = false \/ state s = Some true) -> writes (fst (setFan (now e) on s)) = writes s \/ writes (fst (setFan (now e) on s)) = writes s ++ [(now e, false)] \/ state s = None).
  { intros on O. unfold setFan. destruct (state s) as [b|] eqn:B; [|auto]. destruct (Bool.eqb on b) eqn:E; [auto|]. destruct (_ <? _)%Z; [auto|]. cbn. destruct O as [-> |O]; [auto|]. injection O as ->. destruct on; [discriminate E|auto]. }
  destruct (online e) eqn:ON.
  2:{ destruct H as [H|(H & _)]; [|discriminate H]. unfold one_round. rewrite ON. split; [|apply SF; auto]. destruct (set_keeps (now e) false s) as (A & B & C & D). unfold poisoned. rewrite B, C, D. exact H. }
  destruct (volts e) as [[v0|] [v1|]] eqn:V.
  2,3,4: destruct H as [H|(_ & x & y & E & _)]; [|discriminate E]; unfold one_round; rewrite ON, V; cbn [getTemps]; auto.
  set (y0 := iir_next f64 fadd fmul fzero N_settle a v0 (option_map fst (ys s))). set (y1 := iir_next f64 fadd fmul fzero N_settle a v1 (option_map snd (ys s))).
  assert (Y : isnan y0 = true \/ isnan y1 = true).
  { destruct H as [H|(_ & x & y & E & H)].
    - unfold poisoned in H. unfold y0, y1. destruct (ys s) as [[z0 z1]|]; [|contradiction]. destruct H as [(H & _)|(H & _)]; [left|right]; apply next_nan; right; cbn; eauto.
    - injection E as <- <-. destruct H; [left|right]; apply next_nan; auto. }
  assert (R : (isnan y0 = true -> Exists (fun x => isnan x = true) (outs s ++ [v2t nplog false (iir_out a y0)])) /\ (isnan y1 = true -> Exists (fun x => isnan x = true) (ins s ++ [v2t nplog true (iir_out a y1)]))).
  { split; intros Z; apply Exists_app; right; constructor; now apply reading_nan. }
  destruct R as [R0 R1].
  destruct (round_cases a nplog s e) as [(X & _)|[(_ & E & R)|(_ & o & i & E & W & R & E1 & E2 & E3)]]; [congruence| |].
  - rewrite V in E, R. rewrite R. split; [|left; apply (temps_same a nplog (Some v0, Some v1) s)]. unfold getTemps in *. fold y0 y1 in E |- *. cbv zeta in *. destruct (Nat.ltb _ _); [|discriminate E]. cbn [fst]. unfold poisoned. cbn [ys outs ins]. destruct Y as [Y|Y]; [left|right]; auto.
  - rewrite V in E, E1, E2, E3. assert (NN : isnan o = true \/ isnan i = true).
    { unfold getTemps in E. fold y0 y1 in E. cbv zeta in E. destruct (Nat.ltb _ _); [discriminate E|]. injection E as <- <-. destruct Y as [Y|Y]; [left|right]; apply mean_nan; auto. }
    assert (D : decideFan (match state s with Some b => b | None => false end) o i = false).
    { destruct (decideFan _ o i) eqn:D; [|reflexivity]. apply C100_cooling in D as (_ & _ & D1 & D2). destruct NN; congruence. }
    rewrite D in W. split; [|destruct W as (_ & _ & ->); apply SF; auto].
    unfold poisoned. rewrite E1, E2, E3. unfold getTemps in *. fold y0 y1 in E |- *. cbv zeta in *. destruct (Nat.ltb _ _); [discriminate E|]. cbn [fst ys outs ins]. destruct Y as [Y|Y]; [left|right]; auto.
Qed.
End Nan.
Theorem C102_nan_refuted a nplog t t' es e es' v0 v1 : (forall x, isnan x = true -> isnan (nplog x) = true) ->
  online e = true -> volts e = (Some v0, Some v1) -> isnan v0 = true \/ isnan v1 = true ->
  exists w, writes (run a nplog t t' (es ++ e :: es')) = writes (run a nplog t t' es) ++ w /\ Forall (fun x => snd x = false) w.
Proof.
  intros LN ON V N. unfold run. rewrite fold_left_app. cbn [fold_left]. fold (run a nplog t t' es). pose proof (proj1 (run_ok a nplog t t' es)) as O. pose proof (proj2 (run_ok a nplog t t' es)) as S. set (s := run a nplog t t' es) in *. clearbody s.
  assert (G : forall es s, ok s -> spaced (writes s) -> poisoned s -> exists w, writes (fold_left (one_round a nplog) es s) = writes s ++ w /\ Forall (fun x => snd x = false) w).
  { clear - LN. induction es as [|e es IH]; intros s O S P; [exists []; split; [symmetry; apply app_nil_r|constructor]|]. cbn [fold_left].
    destruct (nan_round a nplog LN s e (or_introl P)) as [P' W]. destruct (round_inv a nplog s e O S) as (O' & S' & _). destruct (IH _ O' S' P') as (w & E & F). destruct O as (w0 & b & _ & B). rewrite B in W.
    destruct W as [W|[W|W]]; [| |discriminate W]; rewrite W in E; [eauto|]. exists ((now e, false) :: w). split; [rewrite E, <- app_assoc; reflexivity|]. constructor; [reflexivity|exact F]. }
  destruct (nan_round a nplog LN s e) as [P W]; [right; split; [exact ON|eauto]|]. destruct (round_inv a nplog s e O S) as (O' & S' & _). destruct (G es' _ O' S' P) as (w & E & F). destruct O as (w0 & b & _ & B). rewrite B in W.
  destruct W as [W|[W|W]]; [| |discriminate W]; rewrite W in E; [eauto|]. exists ((now e, false) :: w). split; [rewrite E, <- app_assoc; reflexivity|]. constructor; [reflexivity|exact F].
Qed.
Example C102_nan_ex : exists e, online e = true /\ volts e = (Some (B754_nan : f64), Some (fofZ 5)) /\ isnan (B754_nan : f64) = true /\ (forall x : f64, isnan x = true -> isnan ((fun z => z) x) = true).
Proof. exists (mkTick true (Some B754_nan, Some (fofZ 5)) 0%Z). repeat split. auto. Qed.
Print Assumptions C100_margin.
Print Assumptions C102_nan_refuted.

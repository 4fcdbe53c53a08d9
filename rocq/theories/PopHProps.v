(** * Property C62: the history's "in population" records are the population *)
From Coq Require Import List Bool Arith ZArith Lia Permutation.
From Verif Require Import Flt Py HistModel HistProofs HistProps PopHModel.
Import ListNotations.
Local Open Scope nat_scope.
#[local] Arguments rnd32 : simpl never.
#[local] Arguments isfin : simpl never.
#[local] Arguments hstep : simpl never.
#[local] Arguments hexec : simpl never.

(** the individuals an operation brings in: nd values and an SSE within the
    range of binary32, or an infinite or NaN SSE; assignments hit an existing
    slot; no blacklisting in place *)
Definition ok_ind (nd : nat) (i : ind) : Prop := isfin (iSSE i) = false \/ fit_ind nd i.
Definition ok_call (nd n : nat) (op : pop_op) : Prop :=
  match op with
  | PAppend i _ | PLose i _ => ok_ind nd i
  | PSet k i _ => ok_ind nd i /\ k < n
  | PBlack _ => False
  | PClear => True
  end.
(** executions in which, at any time, the members have pairwise different hashes *)
Inductive pop_run (hash : ind -> Z) (nd nm : nat) : list ind -> hist -> Prop :=
| pr_start : nm = 0 \/ nm = 2 \/ 4 <= nm -> pop_run hash nd nm [] (h_init nd nm)
| pr_step : forall l h op l' h' e, pop_run hash nd nm l h -> ok_call nd (length l) op ->
    pop_step hash (l, h) op = (l', h', e) -> NoDup (map hash l') -> pop_run hash nd nm l' h'.

(** ** the invariant *)
Definition finite (i : ind) : bool := isfin (iSSE i).
Definition Q (hash : ind -> Z) (nd : nat) (m : list ind) (h : hist) : Prop :=
  hinv h /\ Nd h = nd /\ Forall (ok_ind nd) m /\
  (forall i, In i m -> finite i = true -> exists r, In (hash i, r) (krd h) /\ X h r = record_of i) /\
  (forall q r, In (q, r) (krd h) -> exists i, In i m /\ finite i = true /\ hash i = q) /\
  (forall r, In r (Kp h) -> exists q, In (q, r) (krd h)) /\
  (forall q r r', In (q, r) (krd h) -> In (q, r') (krd h) -> r = r').

Lemma Q_perm : forall hash nd m m' h, Permutation m m' -> Q hash nd m h -> Q hash nd m' h.
Proof.
  intros hash nd m m' h P (A & B & C & D & E & F & G). split; [auto|]. split; [auto|]. split; [eapply Permutation_Forall; eauto|].
  split; [intros i I; apply D; apply (Permutation_in _ (Permutation_sym P)); auto|].
  split; [|auto]. intros q r I. destruct (E q r I) as (i & I1 & I2). exists i. split; auto. apply (Permutation_in _ P); auto.
Qed.

Lemma ok_pack : forall nd i, ok_ind nd i -> pack_overflow i = false.
Proof. intros nd i [H|(_ & _ & F & _)]; unfold pack_overflow; [now rewrite H|]. unfold fits in F. rewrite F. apply andb_false_r. Qed.

Lemma hexec1 : forall hash h op, hexec hash h [op] = fst (hstep hash h op).
Proof. reflexivity. Qed.

Lemma Q_add : forall hash nd m h i never o, Q hash nd m h -> ok_ind nd i -> locked h = false ->
  locked (hexec hash h [OAdd (iSSE i) i never o]) = false -> (never = false -> ~ In (hash i) (map hash m)) ->
  Q hash nd (if never then m else i :: m) (hexec hash h [OAdd (iSSE i) i never o]).
Proof.
  intros hash nd m h i never o HQ O U U' N. destruct HQ as (A & B & C & D & E & F & G).
  rewrite hexec1 in *. unfold hstep in *. destruct O as [Nf|Ft].
  - unfold h_add in *. rewrite Nf in *. cbn [negb fst] in *. destruct never; [repeat (split; [assumption|]); assumption|].
    split; [assumption|]. split; [assumption|]. split; [constructor; [now left|assumption]|].
    split; [intros j [<-|Ij] Fj; [unfold finite in Fj; congruence|auto]|].
    split; [|split; assumption]. intros q r I. destruct (E q r I) as (j & J1 & J2). exists j. split; [now right|assumption].
  - assert (Gd : good h i) by (unfold good; rewrite B; exact Ft).
    destruct (add_spec hash h i never o A Gd U) as [S1 S2].
    assert (K : exists h' r gone, h_add hash h (iSSE i) i never o = (h', Ret (Some r)) /\ added hash h h' i never r gone /\ ~ In r (Kp h)).
    { destruct (Nat.lt_ge_cases (length (K h)) (nmax h)) as [Lt|Ge].
      - destruct (S1 Lt) as (h' & E1 & E2). exists h', (length (K h)), []. split; auto. split; auto. intros I.
        assert (I2 : In (length (K h)) (K h)) by (apply (i_cover h A); auto). apply (i_rows h A) in I2. lia.
      - assert (Full : length (K h) = nmax h) by (destruct A; lia). specialize (S2 Full).
        destruct (cpf_call Np_max (cp h) o) as [[g|e]|].
        + destruct S2 as (Hg & h' & E1 & E2). exists h', g, [g]. split; auto. split; auto. intros I. exact (i_disj h A g I Hg).
        + destruct S2 as (_ & _ & E1). rewrite E1 in U'. discriminate.
        + destruct S2 as (_ & E1). rewrite E1 in U'. discriminate. }
    destruct K as (h' & r & gone & -> & Ad & NK). cbn [fst] in *.
    destruct Ad as (I' & Nd' & _ & _ & _ & _ & _ & _ & Xr & Xo & Kp' & _ & Kr').
    assert (Xsame : forall q s, In (q, s) (krd h) -> X h' s = X h s).
    { intros q s I. apply Xo. intros ->. apply NK. eapply (i_kr h A); eauto. }
    split; [assumption|]. split; [congruence|].
    destruct never.
    + split; [assumption|]. split.
      { intros j Ij Fj. destruct (D j Ij Fj) as (s & I1 & I2). exists s. split; [now apply Kr'|]. rewrite <- I2. eapply Xsame; eauto. }
      split; [intros q s I; apply Kr' in I; eauto|].
      split; [intros s I; apply Kp' in I; destruct I as [I|[? _]]; [|discriminate]; destruct (F s I) as (q & Hq); exists q; now apply Kr'|].
      intros q s s' I1 I2. apply Kr' in I1, I2. eauto.
    + specialize (N eq_refl).
      assert (Fresh : forall q s, In (q, s) (krd h) -> q <> hash i).
      { intros q s I ->. destruct (E _ _ I) as (j & J1 & _ & J3). apply N. rewrite <- J3. now apply in_map. }
      split; [constructor; [now right|assumption]|]. split.
      { intros j [<-|Ij] Fj; [exists r; split; [apply Kr'; now left|assumption]|].
        destruct (D j Ij Fj) as (s & I1 & I2). exists s. split; [apply Kr'; right; split; eauto|]. rewrite <- I2. eapply Xsame; eauto. }
      split.
      { intros q s I. apply Kr' in I. destruct I as [[-> ->]|[I _]].
        - exists i. split; [now left|]. split; [apply Ft|reflexivity].
        - destruct (E q s I) as (j & J1 & J2). exists j. split; [now right|assumption]. }
      split.
      { intros s I. apply Kp' in I. destruct I as [I|[_ ->]]; [|exists (hash i); apply Kr'; now left].
        destruct (F s I) as (q & Hq). exists q. apply Kr'. right. split; eauto. }
      intros q s s' I1 I2. apply Kr' in I1, I2. destruct I1 as [[-> ->]|[I1 N1]], I2 as [[E2 ->]|[I2 N2]]; congruence || eauto.
Qed.

Lemma zget_some : forall d k r, In (k, r) d -> exists r', zget d k = Some r'.
Proof.
  intros d k r I. unfold zget. destruct (find (fun e => Z.eqb (fst e) k) d) as [[q s]|] eqn:E; [eauto|].
  assert (H := find_none _ _ E _ I). cbn [fst] in H. now rewrite Z.eqb_refl in H.
Qed.

Lemma Q_out : forall hash nd m h i, Q hash nd (i :: m) h -> locked h = false -> ~ In (hash i) (map hash m) ->
  Q hash nd m (hexec hash h [ONotIn i]) /\ locked (hexec hash h [ONotIn i]) = false.
Proof.
  intros hash nd m h i (A & B & C & D & E & F & G) U N. rewrite hexec1. unfold hstep. inversion C as [|? ? Ci Cm]; subst.
  destruct (notin_spec hash h i A U (ok_pack _ _ Ci)) as (h' & -> & I' & Nd' & _ & _ & L' & X' & _ & _ & Kp' & Kr'). cbn [fst].
  split; [|congruence]. split; [assumption|]. split; [assumption|]. split; [assumption|].
  split.
  { intros j Ij Fj. destruct (D j (or_intror Ij) Fj) as (s & I1 & I2). exists s. rewrite X'. split; auto. apply Kr'. split; auto.
    intros H. apply N. rewrite <- H. now apply in_map. }
  split.
  { intros q s I. apply Kr' in I. destruct I as [I Nq]. destruct (E q s I) as (j & [<-|J1] & J2 & J3); [congruence|]. eauto. }
  split.
  { intros s I. apply Kp' in I. destruct I as [I Z]. destruct (F s I) as (q & Hq). exists q. apply Kr'. split; auto. intros ->.
    destruct (zget_some _ _ _ Hq) as (s' & Hs). apply Z. rewrite Hs. f_equal. apply zget_in in Hs. eauto. }
  intros q s s' I1 I2. apply Kr' in I1, I2. destruct I1, I2. eauto.
Qed.

Lemma hexec_locked : forall hash ops h, locked h = true -> locked (hexec hash h ops) = true.
Proof.
  intros hash ops h U. assert (K := C35_locked_forever hash ops h U). intuition congruence.
Qed.
Lemma upd_app : forall A (a : list A) x y b, upd (length a) y (a ++ x :: b) = a ++ y :: b.
Proof. induction a; simpl; intros; auto. now rewrite IHa. Qed.

Lemma run_Q : forall hash nd nm l h, pop_run hash nd nm l h -> NoDup (map hash l) /\ (locked h = false -> Q hash nd l h).
Proof.
  intros hash nd nm l h R. induction R as [Cap|l h op l' h' e R IH O St ND].
  - split; [constructor|]. intros _. split; [now apply inv_init|]. split; [reflexivity|]. split; [constructor|]. cbn [h_init krd Kp].
    split; [intros ? []|]. split; [intros ? ? []|]. split; [intros ? []|]. intros ? ? ? [].
  - split; auto. intros U'. destruct IH as [ND0 IH]. destruct op as [i o|k i o|i o|k|]; cbn [pop_step ok_call] in *.
    + injection St as <- <- <-. destruct (locked h) eqn:U; [rewrite hexec_locked in U'; congruence|].
      rewrite map_app in ND. apply NoDup_remove in ND. rewrite app_nil_r in ND. destruct ND as [_ ND].
      eapply Q_perm; [apply Permutation_cons_append|]. apply (Q_add hash nd l h i false o); auto.
    + destruct O as [O Lt]. destruct (Nat.ltb_spec k (length l)); [|lia]. injection St as <- <- <-.
      destruct (nth_error l k) as [prev|] eqn:Ek; [|apply nth_error_None in Ek; lia].
      apply nth_error_split in Ek. destruct Ek as (a & b & -> & <-). rewrite upd_app in *.
      destruct (locked h) eqn:U; [rewrite hexec_locked in U'; [congruence|]; now apply hexec_locked|].
      rewrite map_app in ND, ND0. cbn [map] in ND, ND0. apply NoDup_remove in ND, ND0. rewrite <- map_app in ND, ND0.
      destruct (Q_out hash nd (a ++ b) h prev) as [Q1 U1]; [eapply Q_perm; [|apply IH; auto]; apply Permutation_sym, Permutation_middle|auto|tauto|].
      eapply Q_perm; [apply Permutation_middle|]. apply (Q_add hash nd (a ++ b) _ i false o); auto. intros _. tauto.
    + injection St as <- <- <-. destruct (locked h) eqn:U; [rewrite hexec_locked in U'; congruence|].
      apply (Q_add hash nd l h i true o); auto. discriminate.
    + destruct O.
    + injection St as <- <- <-. destruct (locked h) eqn:U; [rewrite hexec_locked in U'; congruence|]. destruct (IH eq_refl) as (A & B & _).
      split; [apply clear_spec; auto|]. unfold hexec, hstep, h_clear. rewrite U. cbn [fst Nd krd Kp]. split; [auto|].
      split; [constructor|]. split; [intros ? []|]. split; [intros ? ? []|]. split; [intros ? []|]. intros ? ? ? [].
Qed.

(** C62: after any sequence of setting up, replacing members, recording losing
    challengers and clearing, the history's population records are, one for
    one, the members with finite SSE: SSE and values rounded to binary32 *)
Theorem C62_members : forall hash nd nm l h, pop_run hash nd nm l h -> locked h = false ->
  exists rows, Forall2 (fun i r => X h r = map rnd32 (iSSE i :: ivals i)) (filter (fun i => isfin (iSSE i)) l) rows /\
    NoDup rows /\ (forall r, In r rows <-> In r (Kp h)).
Proof.
  intros hash nd nm l h R U. destruct (run_Q _ _ _ _ _ R) as [ND HQ]. destruct (HQ U) as (A & B & C & D & E & F & G).
  assert (S : exists rows, Forall2 (fun i r => X h r = record_of i /\ In (hash i, r) (krd h)) (filter finite l) rows /\ NoDup rows).
  { clear E F HQ R. revert ND D. clear C. induction l as [|i l IH]; intros ND D; [exists []; split; constructor|].
    cbn [map] in ND. inversion ND as [|? ? Ni NDl]; subst. destruct IH as (rows & F2 & NR); auto; [intros j Ij; apply D; now right|].
    cbn [filter]. destruct (finite i) eqn:Fi; [|eauto]. destruct (D i (or_introl eq_refl) Fi) as (r & I1 & I2).
    exists (r :: rows). split; [constructor; auto|]. constructor; auto. intros Ir.
    assert (K : exists j, In j (filter finite l) /\ In (hash j, r) (krd h)).
    { revert F2. generalize (filter finite l) as m. clear - Ir. intros m F2. induction F2 as [|j s L R' [_ J] F2 IH]; [destruct Ir|]. destruct Ir as [<-|Ir]; [exists j; split; [now left|auto]|].
      destruct (IH Ir) as (j' & J1 & J2). exists j'. split; [now right|auto]. }
    destruct K as (j & J1 & J2). apply filter_In in J1. apply Ni. rewrite (i_inj h A _ _ _ I1 J2). apply in_map. tauto. }
  destruct S as (rows & F2 & NR). exists rows. split; [|split; auto].
  - change (filter (fun i => isfin (iSSE i)) l) with (filter finite l). revert F2. generalize (filter finite l) as m. clear. intros m F2.
    induction F2 as [|? ? ? ? [? _]]; constructor; auto.
  - assert (S1 : forall r, In r rows -> exists j, In (hash j, r) (krd h)).
    { revert F2. generalize (filter finite l) as m. clear. intros m F2. induction F2 as [|j s L R' [_ J] F2 IH]; intros r Ir; [destruct Ir|]. destruct Ir as [<-|Ir]; eauto. }
    assert (S2 : forall i, In i (filter finite l) -> exists r, In r rows /\ In (hash i, r) (krd h)).
    { revert F2. generalize (filter finite l) as m. clear. intros m F2. induction F2 as [|j s L R' [_ J] F2 IH]; intros i Ii; [destruct Ii|].
      destruct Ii as [<-|Ii]; [exists s; split; [now left|auto]|]. destruct (IH i Ii) as (r & ? & ?). exists r. split; [now right|auto]. }
    intros r. split.
    + intros Ir. destruct (S1 r Ir) as (j & J). eapply (i_kr h A); eauto.
    + intros Ir. destruct (F r Ir) as (q & Hq). destruct (E q r Hq) as (i & I1 & I2 & I3).
      destruct (S2 i) as (s & J1 & J2); [apply filter_In; auto|]. rewrite I3 in J2. now rewrite (G _ _ _ Hq J2).
Qed.
Print Assumptions C62_members.

(** while there are fewer members than rows, recording another individual
    cannot fail; it can only wait for the pair sampling of a full history *)
Theorem C62_room : forall hash nd nm l h i never o, pop_run hash nd nm l h -> locked h = false ->
  length l < nmax h -> fit_ind nd i ->
  match snd (h_add hash h (iSSE i) i never o) with
  | Ret (Some r) => r < nmax h
  | Blocked => length (K h) = nmax h /\ cpf_call Np_max (cp h) o = None
  | _ => False
  end.
Proof.
  intros hash nd nm l h i never o R U Lt Ft. destruct (C62_members _ _ _ _ _ R U) as (rows & F2 & NR & HR).
  destruct (run_Q _ _ _ _ _ R) as [ND HQ]. destruct (HQ U) as (A & B & _).
  assert (G : good h i) by (unfold good; rewrite B; exact Ft).
  destruct (add_spec hash h i never o A G U) as [S1 S2].
  destruct (Nat.lt_ge_cases (length (K h)) (nmax h)) as [Lk|Ge].
  - destruct (S1 Lk) as (h' & -> & Ad). cbn [snd]. apply Ad.
  - assert (Full : length (K h) = nmax h) by (destruct A; lia). specialize (S2 Full).
    destruct (cpf_call Np_max (cp h) o) as [[g|e]|].
    + destruct S2 as (_ & h' & -> & Ad). cbn [snd]. apply Ad.
    + destruct S2 as (_ & Ek & _). exfalso.
      assert (Inc : incl (K h) rows).
      { intros r Ir. apply HR. apply (i_cover h A) in Ir. rewrite Ek in Ir. destruct Ir as [|[]]; auto. }
      assert (L1 := NoDup_incl_length (i_nodup h A) Inc). assert (L2 : length rows = length (filter finite l)).
      { change (filter (fun i => isfin (iSSE i)) l) with (filter finite l) in F2. revert F2. generalize (filter finite l) as m. clear.
        intros m F2. induction F2; simpl; congruence. }
      assert (L3 := filter_length_le _ finite l). lia.
    + destruct S2 as (_ & ->). cbn [snd]. auto.
Qed.
Print Assumptions C62_room.

(** ** witnesses *)
Definition pexec (ops : list pop_op) : list ind * hist := pop_exec hash0 ([], h_init 1 5) ops.
Definition popx : list pop_op :=
  [PAppend (an 5) o0; PAppend (an 9) o0; PAppend (mkInd finf [fz 1]) o0; PLose (an 7) o0; PSet 0 (an 3) o0;
   PSet 2 (an 4) o0; PLose (an 8) o0; PSet 1 (an 1) o0].
Lemma run_exec : forall ops l h, pop_run hash0 1 5 l h ->
  (fix ok (l : list ind) (h : hist) (ops : list pop_op) : Prop :=
     match ops with
     | [] => True
     | op :: ops => ok_call 1 (length l) op /\ NoDup (map hash0 (fst (fst (pop_step hash0 (l, h) op)))) /\
                    ok (fst (fst (pop_step hash0 (l, h) op))) (snd (fst (pop_step hash0 (l, h) op))) ops
     end) l h ops ->
  pop_run hash0 1 5 (fst (pop_exec hash0 (l, h) ops)) (snd (pop_exec hash0 (l, h) ops)).
Proof.
  induction ops as [|op ops IH]; intros l h R O; [exact R|]. destruct O as (O1 & O2 & O3). cbn [pop_exec].
  destruct (pop_step hash0 (l, h) op) as [[l' h'] e] eqn:E. cbn [fst snd] in *. apply IH; auto. eapply pr_step; eauto.
Qed.
Example C62_example : pop_run hash0 1 5 (fst (pexec popx)) (snd (pexec popx)) /\ locked (snd (pexec popx)) = false /\
  Kp (snd (pexec popx)) = [3; 4; 0] /\ map hash0 (fst (pexec popx)) = [3; 1; 4]%Z /\ length (K (snd (pexec popx))) = 5 /\ nmax (snd (pexec popx)) = 5.
Proof.
  split; [|vm_compute; auto]. apply run_exec; [apply pr_start; lia|]. unfold popx.
  repeat (match goal with |- _ /\ _ => split end; [cbn [ok_call]; try (split; [|cbn [pop_step fst snd length app upd]; vm_compute; lia]);
     first [right; apply an_fit; vm_compute; reflexivity|left; vm_compute; reflexivity]|];
     split; [vm_compute; repeat (constructor; [simpl; intuition discriminate|]); constructor|]).
  exact Logic.I.
Qed.

(** two members equal to each other share one entry of the hash table: after
    both are replaced, one of their records still counts as in the population *)
Definition twins : list pop_op := [PAppend (an 5) o0; PAppend (an 5) o0; PSet 0 (an 1) o0; PSet 1 (an 2) o0].
Theorem C62_twins_refuted : let (l, h) := pexec twins in
  map (fun i => ftrunc (iSSE i)) l = [1; 2]%Z /\ locked h = false /\ length (Kp h) = 3 /\ existsb (fun r => feqb (h_sse h r) (fz 5)) (Kp h) = true.
Proof. vm_compute. auto. Qed.
Print Assumptions C62_twins_refuted.

(** a member blacklisted in place has another hash: its record stays in the
    population for good after it is replaced *)
Theorem C62_blacklisted_refuted : let (l, h) := pexec [PAppend (an 5) o0; PAppend (an 6) o0; PBlack 0; PSet 0 (an 1) o0] in
  map (fun i => ftrunc (iSSE i)) l = [1; 6]%Z /\ locked h = false /\ length (Kp h) = 3 /\ existsb (fun r => feqb (h_sse h r) (fz 5)) (Kp h) = true.
Proof. vm_compute. auto. Qed.
Print Assumptions C62_blacklisted_refuted.

(** p[k] = i beyond the end raises IndexError with the individual already
    recorded as a member *)
Theorem C62_beyond_end_refuted : forall hash l h k i o, length l <= k ->
  pop_step hash (l, h) (PSet k i o) = (l, fst (h_add hash h (iSSE i) i false o), Some IndexError).
Proof.
  intros hash l h k i o H. unfold pop_step. assert (E := proj2 (nth_error_None l k) H). rewrite E.
  destruct (Nat.ltb_spec k (length l)); [lia|reflexivity].
Qed.
Print Assumptions C62_beyond_end_refuted.
Example C62_beyond_end_example : Kp (snd (fst (pop_step hash0 ([], h_init 1 5) (PSet 0 (an 5) o0)))) = [0].
Proof. vm_compute. reflexivity. Qed.

(** ** C63: purgePop *)
Lemma kp_nodup_step : forall hash h op, NoDup (Kp h) -> op <> OPurgePop -> NoDup (Kp (fst (hstep hash h op))).
Proof.
  intros hash h op N NP. destruct op as [sse i never o|i|kr| |]; unfold hstep; [| | |congruence|].
  - assert (W : forall h0 k r, NoDup (Kp h0) -> NoDup (Kp (fst (write_record hash h0 i never k r)))).
    { intros h0 k r N0. unfold write_record. destruct (negb _); auto. destruct (row_of _ _); auto. destruct never.
      - destruct (set_row _ _ _ _); auto.
      - destruct (pack_overflow i); cbn [fst Kp]; now apply nodup_sadd. }
    assert (A : forall h0 N0, NoDup (Kp h0) -> NoDup (Kp (fst (add_at hash h0 sse N0 i never)))).
    { intros h0 N0 H0. unfold add_at. destruct (if N0 =? 0 then _ else _) as [[k r]|]; auto. specialize (W h0 k r H0).
      destruct (write_record hash h0 i never k r) as [h1 [e|]]; auto. }
    unfold h_add. destruct (negb _); auto. destruct (locked h); auto. destruct (_ <? _); auto.
    destruct (cpf_call _ _ _) as [[kr|e]|]; auto. unfold purge. destruct (mem kr (K h)); auto. apply A. cbn [Kp]. now apply nodup_sdel.
  - unfold not_in_pop. destruct (locked h); auto. destruct (pack_overflow i); auto. destruct (zget _ _) as [kr|]; auto.
    unfold not_in_row. destruct (if _ <? _ then _ else _); cbn [fst Kp]; now apply nodup_sdel.
  - destruct (locked h); auto. unfold not_in_row. destruct (if _ <? _ then _ else _); cbn [fst Kp]; now apply nodup_sdel.
  - unfold h_clear. destruct (locked h); auto. constructor.
Qed.
Lemma kp_nodup : forall hash nd nm ops h, reach hash nd nm ops h -> NoDup (Kp h).
Proof.
  intros hash nd nm ops h (_ & F & ->). assert (N : NoDup (Kp (h_init nd nm))) by constructor. revert N F.
  generalize (h_init nd nm). induction ops as [|op ops IH]; intros h N F; auto. inversion F; subst. cbn [hexec].
  apply IH; auto. apply kp_nodup_step; auto. intros ->. contradiction.
Qed.
Lemma remove1_filter : forall x l, NoDup l -> remove1 x l = filter (fun y => negb (y =? x)) l.
Proof.
  induction l as [|y l IH]; intros N; auto. inversion N; subst. cbn [remove1 filter]. destruct (Nat.eqb_spec y x) as [->|]; cbn [negb].
  - symmetry. clear - H1. induction l as [|z l IH]; auto. cbn [filter]. destruct (Nat.eqb_spec z x) as [->|]; [exfalso; apply H1; now left|].
    cbn [negb]. f_equal. apply IH. intros I. apply H1. now right.
  - f_equal. auto.
Qed.
Lemma filter_filter : forall A (f g : A -> bool) l, filter f (filter g l) = filter (fun x => g x && f x) l.
Proof. induction l as [|x l IH]; auto. cbn [filter]. destruct (g x); cbn [filter andb]; rewrite IH; auto. Qed.
Lemma purge_all_spec : forall ks h, NoDup ks -> NoDup (K h) -> (forall r, In r ks -> In r (K h)) ->
  exists h', purge_all h ks = Ok h' /\ K h' = filter (fun r => negb (mem r ks)) (K h) /\
    (forall r, In r (Kp h') <-> In r (Kp h) /\ ~ In r ks) /\ (forall r, In r (Kn h') <-> In r (Kn h) /\ ~ In r ks) /\
    (forall r, In r (cK (cp h')) <-> In r (cK (cp h)) /\ ~ In r ks) /\
    X h' = X h /\ total h' = total h /\ locked h' = locked h /\ Nd h' = Nd h /\ nmax h' = nmax h.
Proof.
  induction ks as [|k ks IH]; intros h N NK S.
  - exists h. cbn [purge_all]. split; [auto|]. split; [|simpl; intuition]. symmetry. cbn [mem existsb negb]. clear. induction (K h); simpl; congruence.
  - inversion N; subst. cbn [purge_all]. unfold purge. rewrite (proj2 (mem_spec k (K h))) by (apply S; now left). cbn [bind].
    rewrite remove1_filter by auto.
    match goal with |- context [purge_all ?x ks] => destruct (IH x) as (h' & E & A1 & A2 & A3 & A4 & A5) end; auto.
    + cbn [K]. now apply NoDup_filter.
    + cbn [K]. intros r I. apply filter_In. split; [apply S; now right|]. destruct (Nat.eqb_spec r k) as [->|]; auto.
    + rewrite E. exists h'. cbn [K Kp Kn X cp total locked Nd nmax] in *. split; [auto|]. split; [|split; [|split; [|split; [|exact A5]]]].
      * rewrite A1, filter_filter. apply filter_ext. intros r. unfold mem. cbn [existsb]. destruct (r =? k); reflexivity.
      * intros r. rewrite A2, in_sdel. simpl. intuition.
      * intros r. rewrite A3, in_sdel. simpl. intuition.
      * intros r. rewrite A4. unfold clear_row. destruct (mem k (cK (cp h))) eqn:M; cbn [cK]; [rewrite in_sdel; simpl; intuition|].
        apply mem_false in M. simpl. split; [|intuition]. intros [? ?]. split; auto. intros [->|]; auto.
Qed.
(** C63: purgePop removes the records of the population from the roster, all of
    them and no others, keeps the order, the classes and the contents of the rest,
    and makes the history forget the individuals: notInPop does nothing for
    any of them afterwards *)
Theorem C63_purge_pop : forall hash nd nm ops h, reach hash nd nm ops h -> locked h = false ->
  exists h', purge_pop h = (h', Ret None) /\ locked h' = false /\ total h' = total h /\ X h' = X h /\
    (forall r, ~ In r (Kp h')) /\ (forall r, In r (Kn h') <-> In r (Kn h)) /\
    K h' = filter (fun r => if in_dec Nat.eq_dec r (Kp h) then false else true) (K h) /\
    (forall i, pack_overflow i = false -> not_in_pop hash h' i = (h', Ret None)).
Proof.
  intros hash nd nm ops h R U. destruct (reach_inv _ _ _ _ _ R) as [I _].
  destruct (purge_all_spec (Kp h) h (kp_nodup _ _ _ _ _ R) (i_nodup h I)) as (h' & E & A1 & A2 & A3 & A4 & A5 & A6 & A7 & A8 & A9).
  { intros r Ir. apply (i_cover h I). auto. }
  unfold purge_pop. rewrite U, E. eexists. split; [reflexivity|]. cbn [locked total X Kp Kn K krd]. split; [congruence|]. split; [auto|]. split; [auto|].
  split; [intros r Ir; apply A2 in Ir; tauto|]. split.
  - intros r. rewrite A3. split; [tauto|]. intros Ir. split; auto. intros Ip. apply (i_disj h I r Ip). now apply (i_kn h I).
  - split.
    + rewrite A1. apply filter_ext. intros r. destruct (in_dec Nat.eq_dec r (Kp h)) as [i|n].
      * now rewrite (proj2 (mem_spec r (Kp h)) i).
      * now rewrite (proj2 (mem_false r (Kp h)) n).
    + intros i Pk. unfold not_in_pop. cbn [locked krd]. rewrite A7, U, Pk. reflexivity.
Qed.
Print Assumptions C63_purge_pop.
Example C63_example : locked (run 4 opsx) = false /\ K (fst (purge_pop (run 4 opsx))) = [3; 0].
Proof. vm_compute. auto. Qed.

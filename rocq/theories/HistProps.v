(** * Properties C31-C37: ade/history.py *)
From Coq Require Import List Bool Arith ZArith NArith Lia Sorted Permutation Reals Lra.
From Flocq Require Import BinarySingleNaN.
From Verif Require Import Flt FltMore Py HistModel HistProofs.
Import ListNotations.
Local Open Scope nat_scope.
#[local] Arguments rnd32 : simpl never.
#[local] Arguments isfin : simpl never.
#[local] Arguments fltb : simpl never.
#[local] Arguments fleb : simpl never.

(** individuals with nd values whose SSE and values do not overflow binary32 *)
Definition fit_ind (nd : nat) (i : ind) : Prop :=
  length (ivals i) = nd /\ isfin (iSSE i) = true /\ fits (iSSE i) /\ Forall fits (ivals i).
(** the operations considered: add of a fitting individual whose SSE does not
    change while add waits for the lock, or of one with infinite or NaN SSE;
    notInPop of an individual; clear *)
Definition okop (nd : nat) (op : hop) : Prop :=
  match op with
  | OAdd sse i never o => isfin sse = false \/ (sse = iSSE i /\ fit_ind nd i)
  | ONotIn i => pack_overflow i = false
  | OClear => True
  | _ => False
  end.
(** reachable histories of nd parameters and capacity nm (0: the default 1500) *)
Definition reach (hash : ind -> Z) (nd nm : nat) (ops : list hop) (h : hist) : Prop :=
  (nm = 0 \/ nm = 2 \/ 4 <= nm) /\ Forall (okop nd) ops /\ h = hexec hash (h_init nd nm) ops.

Lemma hexec_app : forall hash a b h, hexec hash h (a ++ b) = hexec hash (hexec hash h a) b.
Proof. induction a; intros; simpl; auto. Qed.
Lemma step_nd : forall hash h op, okop (Nd h) op -> hinv h ->
  hinv (fst (hstep hash h op)) /\ Nd (fst (hstep hash h op)) = Nd h /\ nmax (fst (hstep hash h op)) = nmax h.
Proof.
  intros hash h op O I. destruct op as [sse i never o|i|kr| |]; cbn [okop hstep] in *; try tauto.
  - destruct O as [Nf|[-> G]]; [unfold h_add; rewrite Nf; auto|]. destruct (locked h) eqn:U.
    + unfold h_add. destruct G as (G1 & G2 & _). rewrite G2, U. auto.
    + assert (G' : good h i) by exact G. destruct (add_spec hash h i never o I G' U) as [A B].
      destruct (Nat.lt_ge_cases (length (K h)) (nmax h)) as [Lt|Ge].
      * destruct (A Lt) as (h' & E & Inv & E1 & E2 & _). rewrite E. auto.
      * assert (F : length (K h) = nmax h) by (destruct I; lia). specialize (B F).
        destruct (cpf_call Np_max (cp h) o) as [[g|e]|].
        -- destruct B as (_ & h' & E & Inv & E1 & E2 & _). rewrite E. auto.
        -- destruct B as (_ & _ & E). rewrite E. cbn [fst]. split; [now apply inv_lock|auto].
        -- destruct B as (_ & E). rewrite E. cbn [fst]. split; [now apply inv_lock|auto].
  - destruct (locked h) eqn:U; [unfold not_in_pop; rewrite U; auto|].
    destruct (notin_spec hash h i I U O) as (h' & E & Inv & E1 & E2 & _). rewrite E. auto.
  - destruct (locked h) eqn:U; [unfold h_clear; rewrite U; auto|]. split; [now apply clear_spec|]. unfold h_clear. rewrite U. auto.
Qed.
Lemma exec_inv : forall hash ops h, Forall (okop (Nd h)) ops -> hinv h ->
  hinv (hexec hash h ops) /\ Nd (hexec hash h ops) = Nd h /\ nmax (hexec hash h ops) = nmax h.
Proof.
  induction ops as [|op ops IH]; intros h F I; simpl; auto. inversion F; subst. destruct (step_nd hash h op H1 I) as (I' & E1 & E2).
  destruct (IH (fst (hstep hash h op))) as (A & B & C); auto; [now rewrite E1|]. split; auto. split; congruence.
Qed.
Lemma reach_inv : forall hash nd nm ops h, reach hash nd nm ops h -> hinv h /\ Nd h = nd.
Proof.
  intros hash nd nm ops h (Hn & F & ->). destruct (exec_inv hash ops (h_init nd nm)) as (A & B & _); auto. now apply inv_init.
Qed.
(** the capacity stays what was asked for, 1500 by default *)
Theorem C31_capacity : forall hash nd nm ops h, reach hash nd nm ops h -> nmax h = (if nm =? 0 then 1500 else nm) /\ length (K h) <= nmax h.
Proof.
  intros hash nd nm ops h (Hn & F & ->). destruct (exec_inv hash ops (h_init nd nm)) as (A & B & C); auto; [now apply inv_init|]. split; [exact C|apply A].
Qed.

(** what a single step can do to the rows: either nothing but making them
    expendable, or clearing, or adding *)
Lemma step_rows : forall hash h op r, okop (Nd h) op -> hinv h -> In r (K (fst (hstep hash h op))) ->
  (In r (K h) /\ X (fst (hstep hash h op)) r = X h r) \/
  (exists sse i never o, op = OAdd sse i never o /\ X (fst (hstep hash h op)) r = record_of i).
Proof.
  intros hash h op r O I. destruct op as [sse i never o|i|kr| |]; cbn [okop hstep] in *; try tauto.
  - destruct O as [Nf|[-> G]]; [unfold h_add; rewrite Nf; auto|]. destruct (locked h) eqn:U.
    + unfold h_add. destruct G as (G1 & G2 & _). rewrite G2, U. auto.
    + assert (G' : good h i) by exact G. destruct (add_spec hash h i never o I G' U) as [A B].
      assert (Ad : forall h' g gone, added hash h h' i never g gone -> In r (K h') ->
        (In r (K h) /\ X h' r = X h r) \/ (exists sse' i' never' o', OAdd (iSSE i) i never o = OAdd sse' i' never' o' /\ X h' r = record_of i')).
      { intros h' g gone (_ & _ & _ & _ & _ & _ & HK & Hne & HX & HXo & _) Hr. destruct (Nat.eq_dec r g) as [->|N].
        - right. eauto 6.
        - left. apply HK in Hr. destruct Hr as [Hr|[Hr _]]; [congruence|]. auto. }
      destruct (Nat.lt_ge_cases (length (K h)) (nmax h)) as [Lt|Ge].
      * destruct (A Lt) as (h' & E & Had). rewrite E. cbn [fst]. eapply Ad; eauto.
      * assert (F : length (K h) = nmax h) by (destruct I; lia). specialize (B F).
        destruct (cpf_call Np_max (cp h) o) as [[g|e]|].
        -- destruct B as (_ & h' & E & Had). rewrite E. cbn [fst]. eapply Ad; eauto.
        -- destruct B as (_ & _ & E). rewrite E. cbn [fst]. auto.
        -- destruct B as (_ & E). rewrite E. cbn [fst]. auto.
  - destruct (locked h) eqn:U; [unfold not_in_pop; rewrite U; auto|].
    destruct (notin_spec hash h i I U O) as (h' & E & _ & _ & _ & _ & _ & EX & EK & _). rewrite E. cbn [fst]. rewrite EX, EK. auto.
  - unfold h_clear. destruct (locked h); cbn [fst K X]; [auto|intros []].
Qed.

(** C31: every reachable history with capacity 2 or at least 4 has at most
    N_max records, in pairwise different rows, in non-decreasing order of stored
    SSE; each record is that of an individual that was added (rounded to single
    precision), and iterating gives the records' values in that order *)
Theorem C31_roster : forall hash nd nm ops h, reach hash nd nm ops h ->
  length (K h) <= nmax h /\ NoDup (K h) /\
  (forall a b x y, a < b -> h_get h a = Some x -> h_get h b = Some y -> fleb (hd fnan x) (hd fnan y) = true) /\
  (forall a x, h_get h a = Some x -> exists sse i never o, In (OAdd sse i never o) ops /\ x = record_of i) /\
  (forall a, nth_error (h_iter h) a = option_map (@tl f64) (h_get h a)).
Proof.
  intros hash nd nm ops h R. destruct (reach_inv _ _ _ _ _ R) as [I End]. split; [apply I|]. split; [apply I|].
  split; [|split].
  - intros a b x y Hab Ha Hb. unfold h_get in *. destruct (nth_error (K h) a) as [ra|] eqn:Ea; [|discriminate].
    destruct (nth_error (K h) b) as [rb|] eqn:Eb; [|discriminate]. injection Ha as <-. injection Hb as <-.
    assert (Lb : b < length (K h)) by (apply nth_error_Some; congruence).
    assert (S := sorted_nth _ _ a b (i_sorted h I) Hab Lb). unfold le_sse, h_sse in S.
    apply (nth_error_nth _ _ 0) in Ea. apply (nth_error_nth _ _ 0) in Eb. now rewrite Ea, Eb in S.
  - intros a x Ha. unfold h_get in Ha. destruct (nth_error (K h) a) as [r|] eqn:Ea; [|discriminate]. injection Ha as <-.
    apply nth_error_In in Ea. clear I End. destruct R as (Hn & F & ->). revert r Ea.
    induction ops as [|op ops IH] using rev_ind; intros r Ea; [destruct Ea|].
    apply Forall_app in F. destruct F as [F F1]. inversion F1; subst. rewrite hexec_app in *. cbn [hexec] in *.
    destruct (exec_inv hash ops (h_init nd nm) F (inv_init nd nm Hn)) as (I & E1 & _).
    assert (Hop : okop (Nd (hexec hash (h_init nd nm) ops)) op) by (rewrite E1; assumption).
    destruct (step_rows hash _ op r Hop I Ea) as [[Hr ->]|(sse & i & never & o & -> & E)].
    + destruct (IH F r Hr) as (sse & i & never & o & Hin & E). exists sse, i, never, o. rewrite in_app_iff. auto.
    + exists sse, i, never, o. rewrite in_app_iff. simpl. auto.
  - intros a. unfold h_iter, h_get. rewrite nth_error_map. now destruct (nth_error (K h) a).
Qed.

(** C34: non-finite SSE *)
Theorem C34_nonfinite_ignored : forall hash h sse i never o, isfin sse = false -> h_add hash h sse i never o = (h, Ret None).
Proof. intros. unfold h_add. now rewrite H. Qed.

(** C34: any other add that fires increases N_total by one and returns a row
    below N_max where the individual's SSE and values, rounded to single
    precision, are then found, in the roster; every record that was there keeps
    its row and contents, except that on a full roster one record gives up its
    row to the new one *)
Theorem C34_add : forall hash nd nm ops h i never o r h', reach hash nd nm ops h -> fit_ind nd i ->
  h_add hash h (iSSE i) i never o = (h', Ret (Some r)) ->
  total h' = S (total h) /\ r < nmax h /\ In r (K h') /\ X h' r = map rnd32 (iSSE i :: ivals i) /\
  (forall x, In x (K h) -> x <> r -> In x (K h') /\ X h' x = X h x) /\
  (forall x, In x (K h') -> x <> r -> In x (K h)) /\
  (length (K h) < nmax h -> ~ In r (K h)) /\ (length (K h) = nmax h -> In r (K h)).
Proof.
  intros hash nd nm ops h i never o r h' R G E. destruct (reach_inv _ _ _ _ _ R) as [I End]. subst nd.
  assert (G' : good h i) by exact G. destruct (locked h) eqn:U.
  { unfold h_add in E. destruct G as (_ & Gf & _). rewrite Gf, U in E. discriminate. }
  destruct (add_spec hash h i never o I G' U) as [A B].
  assert (Ad : forall gone, added hash h h' i never r gone -> (forall x, In x gone -> x = r) ->
    total h' = S (total h) /\ r < nmax h /\ In r (K h') /\ X h' r = map rnd32 (iSSE i :: ivals i) /\
    (forall x, In x (K h) -> x <> r -> In x (K h') /\ X h' x = X h x) /\ (forall x, In x (K h') -> x <> r -> In x (K h))).
  { intros gone (_ & _ & _ & Et & _ & Hr & HK & Hne & HX & HXo & _) Hg. split; auto. split; auto. split; [apply HK; auto|]. split; auto. split.
    - intros x Hx N. split; auto. apply HK. right. split; auto.
    - intros x Hx N. apply HK in Hx. destruct Hx as [Hx|[Hx _]]; congruence. }
  destruct (Nat.lt_ge_cases (length (K h)) (nmax h)) as [Lt|Ge].
  - destruct (A Lt) as (h2 & E2 & Had). rewrite E2 in E. injection E as <- <-. destruct (Ad [] Had) as (a & b & c & d & e & f); [intros x []|].
    repeat (split; [assumption|]). split; [|lia]. intros _ Hx. apply (i_rows h I) in Hx. lia.
  - assert (F : length (K h) = nmax h) by (destruct I; lia). specialize (B F).
    destruct (cpf_call Np_max (cp h) o) as [[g|e]|].
    + destruct B as (Hg & h2 & E2 & Had). rewrite E2 in E. injection E as <- <-. destruct (Ad [g] Had) as (a & b & c & d & e & f); [intros x [->|[]]; auto|].
      repeat (split; [assumption|]). split; [lia|]. intros _. apply (i_cover h I). auto.
    + destruct B as (_ & _ & E2). rewrite E2 in E. discriminate.
    + destruct B as (_ & E2). rewrite E2 in E. discriminate.
Qed.

(** C32: only records of non-members are bumped: the row that a full roster
    gives to the new record was not a population member's *)
Theorem C32_bumps_nonmembers : forall hash nd nm ops h i never o r h', reach hash nd nm ops h -> fit_ind nd i ->
  h_add hash h (iSSE i) i never o = (h', Ret (Some r)) -> ~ In r (Kp h).
Proof.
  intros hash nd nm ops h i never o r h' R G E Hp. destruct (reach_inv _ _ _ _ _ R) as [I End]. subst nd.
  assert (G' : good h i) by exact G. destruct (locked h) eqn:U.
  { unfold h_add in E. destruct G as (_ & Gf & _). rewrite Gf, U in E. discriminate. }
  destruct (add_spec hash h i never o I G' U) as [A B].
  destruct (Nat.lt_ge_cases (length (K h)) (nmax h)) as [Lt|Ge].
  - destruct (A Lt) as (h2 & E2 & _). rewrite E2 in E. injection E as <- <-.
    assert (Hx : In (length (K h)) (K h)) by (apply (i_cover h I); auto). apply (i_rows h I) in Hx. lia.
  - assert (F : length (K h) = nmax h) by (destruct I; lia). specialize (B F).
    destruct (cpf_call Np_max (cp h) o) as [[g|e]|].
    + destruct B as (Hg & h2 & E2 & _). rewrite E2 in E. injection E as <- <-. eapply (i_disj h I); eauto.
    + destruct B as (_ & _ & E2). rewrite E2 in E. discriminate.
    + destruct B as (_ & E2). rewrite E2 in E. discriminate.
Qed.

(** the record of a member stays as long as notInPop is not called with an
    individual of the same hash *)
Definition keeps (hash : ind -> Z) (z : Z) (op : hop) : Prop :=
  match op with ONotIn j => hash j <> z | OClear => False | _ => True end.
Lemma protected_exec : forall hash z row r ops h, Forall (okop (Nd h)) ops -> Forall (keeps hash z) ops -> hinv h ->
  In r (Kp h) -> X h r = row -> (forall q, In (q, r) (krd h) -> q = z) ->
  In r (K (hexec hash h ops)) /\ In r (Kp (hexec hash h ops)) /\ X (hexec hash h ops) r = row.
Proof.
  intros hash z row r. induction ops as [|op ops IH]; intros h F Kz I Hp HX Hq; cbn [hexec].
  - split; auto. apply (i_cover h I). auto.
  - inversion F as [|? ? O F']; subst. inversion Kz as [|? ? Z Kz']; subst. destruct (step_nd hash h op O I) as (I' & E1 & E2).
    assert (Hr : In r (K h)) by (apply (i_cover h I); auto).
    assert (Step : In r (Kp (fst (hstep hash h op))) /\ X (fst (hstep hash h op)) r = X h r /\ (forall q, In (q, r) (krd (fst (hstep hash h op))) -> q = z)).
    { destruct op as [sse i never o|i|kr| |]; cbn [okop hstep keeps] in *; try tauto.
      - destruct O as [Nf|[-> G]]; [unfold h_add; rewrite Nf; auto|]. destruct (locked h) eqn:U.
        + unfold h_add. destruct G as (G1 & G2 & _). rewrite G2, U. auto.
        + assert (G' : good h i) by exact G. destruct (add_spec hash h i never o I G' U) as [A B].
          assert (Ad : forall h' g gone, added hash h h' i never g gone -> r <> g -> In r (Kp h') /\ X h' r = X h r /\ (forall q, In (q, r) (krd h') -> q = z)).
          { intros h' g gone (_ & _ & _ & _ & _ & _ & HK & Hne & HXn & HXo & HKp & HKn & Hkr) N. split; [apply HKp; auto|]. split; auto.
            intros q Hin. apply Hkr in Hin. destruct never; auto. destruct Hin as [[_ ->]|[Hin _]]; [congruence|auto]. }
          destruct (Nat.lt_ge_cases (length (K h)) (nmax h)) as [Lt|Ge].
          * destruct (A Lt) as (h' & E & Had). rewrite E. cbn [fst]. eapply Ad; eauto. apply (i_rows h I) in Hr. lia.
          * assert (Fu : length (K h) = nmax h) by (destruct I; lia). specialize (B Fu).
            destruct (cpf_call Np_max (cp h) o) as [[g|e]|].
            -- destruct B as (Hg & h' & E & Had). rewrite E. cbn [fst]. eapply Ad; eauto. intros ->. eapply (i_disj h I); eauto.
            -- destruct B as (_ & _ & E). rewrite E. cbn [fst]. auto.
            -- destruct B as (_ & E). rewrite E. cbn [fst]. auto.
      - destruct (locked h) eqn:U; [unfold not_in_pop; rewrite U; auto|].
        destruct (notin_spec hash h i I U O) as (h' & E & _ & _ & _ & _ & _ & EX & EK & _ & HKp & Hkr). rewrite E. cbn [fst].
        split; [apply HKp; split; auto; intros Hz; apply zget_in in Hz; apply Hq in Hz; congruence|]. split; [now rewrite EX|].
        intros q Hin. apply Hkr in Hin. apply Hq. tauto. }
    destruct Step as (S1 & S2 & S3). apply IH; auto; try (now rewrite E1); congruence.
Qed.
Theorem C32_members_stay : forall hash nd nm ops h i o r h' ops2, reach hash nd nm ops h -> fit_ind nd i ->
  h_add hash h (iSSE i) i false o = (h', Ret (Some r)) ->
  Forall (okop nd) ops2 -> Forall (keeps hash (hash i)) ops2 ->
  In r (K (hexec hash h' ops2)) /\ In r (Kp (hexec hash h' ops2)) /\ X (hexec hash h' ops2) r = map rnd32 (iSSE i :: ivals i).
Proof.
  intros hash nd nm ops h i o r h' ops2 R G E F Kz. destruct (reach_inv _ _ _ _ _ R) as [I End]. subst nd.
  assert (G' : good h i) by exact G. destruct (locked h) eqn:U.
  { unfold h_add in E. destruct G as (_ & Gf & _). rewrite Gf, U in E. discriminate. }
  destruct (add_spec hash h i false o I G' U) as [A B].
  assert (Ad : forall gone, added hash h h' i false r gone -> ~ In r (Kp h) ->
    hinv h' /\ Nd h' = Nd h /\ In r (Kp h') /\ X h' r = record_of i /\ (forall q, In (q, r) (krd h') -> q = hash i)).
  { intros gone (Inv & EN & _ & _ & _ & _ & HK & Hne & HX & HXo & HKp & HKn & Hkr) Np. split; auto. split; auto. split; [apply HKp; auto|]. split; auto.
    intros q Hin. apply Hkr in Hin. destruct Hin as [[-> _]|[Hin _]]; auto. exfalso. apply Np. eapply (i_kr h I); eauto. }
  assert (Np := C32_bumps_nonmembers hash _ _ _ _ _ _ _ _ _ R G E).
  assert (Done : hinv h' /\ Nd h' = Nd h /\ In r (Kp h') /\ X h' r = record_of i /\ (forall q, In (q, r) (krd h') -> q = hash i)).
  { destruct (Nat.lt_ge_cases (length (K h)) (nmax h)) as [Lt|Ge].
    - destruct (A Lt) as (h2 & E2 & Had). rewrite E2 in E. injection E as <- <-. eapply Ad; eauto.
    - assert (Fu : length (K h) = nmax h) by (destruct I; lia). specialize (B Fu).
      destruct (cpf_call Np_max (cp h) o) as [[g|e]|].
      + destruct B as (Hg & h2 & E2 & Had). rewrite E2 in E. injection E as <- <-. eapply Ad; eauto.
      + destruct B as (_ & _ & E2). rewrite E2 in E. discriminate.
      + destruct B as (_ & E2). rewrite E2 in E. discriminate. }
  destruct Done as (Inv & EN & D1 & D2 & D3). apply (protected_exec hash (hash i) (record_of i) r ops2 h'); auto. now rewrite EN.
Qed.

(** C33: in every reachable history each record is in exactly one of the
    classes: in the population, never in the population, neither; all rows in a
    class are records; the pair finder considers exactly the records that are not
    in the population, and knows which of them were never in it *)
Theorem C33_classes : forall hash nd nm ops h, reach hash nd nm ops h ->
  (forall r, In r (Kp h) -> In r (K h) /\ ~ In r (Kn h)) /\ (forall r, In r (Kn h) -> In r (K h)) /\
  (forall r, In r (cK (cp h)) <-> In r (K h) /\ ~ In r (Kp h)) /\
  (forall r, In r (cKn (cp h)) <-> In r (Kn h)).
Proof.
  intros hash nd nm ops h R. destruct (reach_inv _ _ _ _ _ R) as [I _]. split; [|split; [|split]].
  - intros r H. split; [apply (i_cover h I); auto|]. intros Hn. eapply (i_disj h I); eauto. now apply (i_kn h I).
  - intros r H. apply (i_cover h I). right. now apply (i_kn h I).
  - intros r. rewrite (i_cover h I). split; [|tauto]. intros Hc. split; auto. intros Hp. eapply (i_disj h I); eauto.
  - intros r. symmetry. apply (i_never h I).
Qed.
(** ... and the selections by value_vs_SSE with inPop, notInPop and neverInPop
    are disjoint and together are the unrestricted selection *)
Theorem C33_selections : forall hash nd nm ops h maxRatio, reach hash nd nm ops h -> K h <> [] ->
  exists a b c all, selected h SInPop maxRatio = Ok a /\ selected h SNotInPop maxRatio = Ok b /\ selected h SNeverInPop maxRatio = Ok c /\
    selected h SAny maxRatio = Ok all /\
    (forall r, In r all <-> In r a \/ In r b \/ In r c) /\
    (forall r, ~ (In r a /\ In r b) /\ ~ (In r a /\ In r c) /\ ~ (In r b /\ In r c)) /\
    (forall r, In r a -> In r (Kp h)) /\ (forall r, In r c -> In r (Kn h)).
Proof.
  intros hash nd nm ops h mr R NE. destruct (C33_classes _ _ _ _ _ R) as (H1 & H2 & _).
  unfold selected. destruct (K h) as [|best l] eqn:E; [congruence|]. rewrite <- E in *. clear E NE.
  do 4 eexists. split; [reflexivity|]. split; [reflexivity|]. split; [reflexivity|]. split; [reflexivity|].
  split; [|split; [|split]].
  - intros r. rewrite !filter_In. unfold in_sel. rewrite !andb_true_iff, !negb_true_iff, !mem_spec, !mem_false.
    destruct (in_dec Nat.eq_dec r (Kp h)), (in_dec Nat.eq_dec r (Kn h)); tauto.
  - intros r. rewrite !filter_In. unfold in_sel. rewrite !andb_true_iff, !negb_true_iff, !mem_spec, !mem_false.
    assert (D : In r (Kp h) -> ~ In r (Kn h)) by (intros; now apply H1). tauto.
  - intros r. rewrite !filter_In. unfold in_sel. rewrite mem_spec. tauto.
  - intros r. rewrite !filter_In. unfold in_sel. rewrite mem_spec. tauto.
Qed.

(** the rows selected are those of the class whose SSE, divided by the lowest
    one in single precision, is at most maxRatio; so with a selected row come
    all rows of the class with an SSE no higher, and the best record is selected
    in its class when maxRatio is at least one *)
Theorem C33_ratio : forall hash nd nm ops h s maxRatio best rest l, reach hash nd nm ops h -> K h = best :: rest ->
  selected h s maxRatio = Ok l ->
  (forall r, In r l <-> In r (K h) /\ fleb (rnd32 (fdiv (h_sse h r) (h_sse h best))) maxRatio = true /\
     match s with SInPop => In r (Kp h) | SNotInPop => ~ In r (Kp h) /\ ~ In r (Kn h) | SNeverInPop => In r (Kn h) | SAny => True end) /\
  (fltb fzero (h_sse h best) = true ->
     (forall r r' all, In r l -> selected h s finf = Ok all -> In r' all -> fleb (h_sse h r') (h_sse h r) = true -> In r' l) /\
     (forall all, fleb fone maxRatio = true -> selected h s finf = Ok all -> In best all -> In best l)).
Proof.
  intros hash nd nm ops h s mr best rest l R EK S. destruct (reach_inv _ _ _ _ _ R) as [I _].
  unfold selected in S. rewrite EK in S. rewrite <- EK in S. injection S as <-. split.
  - intros r. rewrite !filter_In. destruct s; cbn [in_sel]; rewrite ?andb_true_iff, ?negb_true_iff, ?mem_spec, ?mem_false; tauto.
  - intros P. assert (HB : In best (K h)) by (rewrite EK; now left).
    assert (Fb : isfin (h_sse h best) = true) by (destruct (i_data h I best HB) as (_ & _ & D & _); exact D).
    assert (Pk : (0 < B2R (h_sse h best))%R).
    { apply fltb_spec in P. destruct P as (_ & _ & P). rewrite (key_fin _ Fb) in P. rewrite key_fzero in P. exact P. }
    split.
    + intros r r' all Ir E Ir' Le. unfold selected in E. rewrite EK in E. rewrite <- EK in E. injection E as <-.
      apply filter_In in Ir, Ir'. apply filter_In. split; [tauto|]. destruct Ir as [Ir Hr]. destruct Ir' as [Ir' _].
      apply filter_In in Ir, Ir'. destruct Ir as [Ir _]. destruct Ir' as [Ir' _].
      assert (Fr : isfin (h_sse h r) = true) by (destruct (i_data h I r Ir) as (_ & _ & D & _); exact D).
      assert (Fr' : isfin (h_sse h r') = true) by (destruct (i_data h I r' Ir') as (_ & _ & D & _); exact D).
      eapply fleb_trans; [|exact Hr]. apply rnd32_mono. apply fleb_spec.
      destruct (fdiv_key (h_sse h r') (h_sse h best)) as [N1 K1]; auto; [lra|].
      destruct (fdiv_key (h_sse h r) (h_sse h best)) as [N2 K2]; auto; [lra|].
      split; auto. split; auto. rewrite K1, K2. apply crnd_mono. apply fleb_spec in Le. destruct Le as (_ & _ & Le).
      rewrite (key_fin _ Fr), (key_fin _ Fr') in Le. apply Rmult_le_compat_r; [|exact Le]. left. now apply Rinv_0_lt_compat.
    + intros all M E Ib. unfold selected in E. rewrite EK in E. rewrite <- EK in E. injection E as <-.
      apply filter_In in Ib. apply filter_In. split; [tauto|].
      eapply fleb_trans; [|exact M]. 
      eapply fleb_trans with (y := rnd32 fone); [|vm_compute; reflexivity]. apply rnd32_mono. apply fleb_spec.
      destruct (fdiv_key (h_sse h best) (h_sse h best)) as [N1 K1]; auto; [lra|]. split; auto. split; [reflexivity|]. rewrite K1.
      unfold Rdiv. rewrite Rinv_r by lra. rewrite crnd_1, key_fone. apply Rle_refl.
Qed.
Print Assumptions C33_ratio.

(** C35, the universal part: for capacities 2 and at least 4, without purgePop
    and without row indices given to notInPop, an add either returns a row, or
    never fires because the history is locked or the pair sampling does not end, or
    raises ValueError because the roster is full of population members *)
Theorem C35_only_failure : forall hash nd nm ops h i never o, reach hash nd nm ops h -> fit_ind nd i ->
  match snd (h_add hash h (iSSE i) i never o) with
  | Ret (Some _) => True
  | Exc e => e = ValueError /\ locked h = false /\ length (K h) = nmax h /\ (forall r, In r (K h) -> In r (Kp h))
  | Blocked => locked h = true \/ (length (K h) = nmax h /\ cpf_call Np_max (cp h) o = None)
  | Ret None => False
  end.
Proof.
  intros hash nd nm ops h i never o R G. destruct (reach_inv _ _ _ _ _ R) as [I End]. subst nd.
  assert (G' : good h i) by exact G. destruct (locked h) eqn:U.
  { unfold h_add. destruct G as (_ & Gf & _). rewrite Gf, U. cbn [snd negb]. auto. }
  destruct (add_spec hash h i never o I G' U) as [A B].
  destruct (Nat.lt_ge_cases (length (K h)) (nmax h)) as [Lt|Ge].
  - destruct (A Lt) as (h2 & E2 & _). rewrite E2. exact Logic.I.
  - assert (Fu : length (K h) = nmax h) by (destruct I; lia). specialize (B Fu).
    destruct (cpf_call Np_max (cp h) o) as [[g|e]|] eqn:Ec.
    + destruct B as (Hg & h2 & E2 & _). rewrite E2. exact Logic.I.
    + destruct B as (_ & Ek & E2). rewrite E2. cbn [snd]. split; auto. split; auto. split; auto. intros r Hr.
      apply (i_cover h I) in Hr. rewrite Ek in Hr. destruct Hr as [|[]]; auto.
    + destruct B as (_ & E2). rewrite E2. cbn [snd]. right. auto.
Qed.
(** once the lock is lost nothing changes and nothing fires any more, except
    adds of individuals with non-finite SSE *)
Theorem C35_locked_forever : forall hash ops h, locked h = true ->
  hexec hash h ops = h /\ (forall op, In op ops -> snd (hstep hash h op) = Blocked \/ exists sse i never o, op = OAdd sse i never o /\ isfin sse = false).
Proof.
  intros hash ops h L.
  assert (S : forall op, fst (hstep hash h op) = h /\ (snd (hstep hash h op) = Blocked \/ exists sse i never o, op = OAdd sse i never o /\ isfin sse = false)).
  { intros [sse i never o|i|kr| |]; cbn [hstep].
    - unfold h_add. destruct (isfin sse) eqn:F; cbn [negb]; rewrite ?L; split; auto. right. eauto 6.
    - unfold not_in_pop. rewrite L. auto.
    - rewrite L. auto.
    - unfold purge_pop. rewrite L. auto.
    - unfold h_clear. rewrite L. auto. }
  split; [|intros op _; apply S]. induction ops as [|op ops IH]; cbn [hexec]; auto. now rewrite (proj1 (S op)).
Qed.

(** ** witnesses *)
Definition fz (n : Z) : f64 := fofZ n.
Definition an (n : Z) : ind := mkInd (fz n) [fz (2 * n)].
Definition o0 : orc := mkOrc (fun _ _ => fzero) (fun _ _ => 0) 0.
Definition hash0 (i : ind) : Z := ftrunc (iSSE i).
Definition addp (n : Z) : hop := OAdd (fz n) (an n) false o0.
Definition addn (n : Z) : hop := OAdd (fz n) (an n) true o0.
Definition run (nm : nat) (ops : list hop) : hist := hexec hash0 (h_init 1 nm) ops.

(** C35: capacity 3: when the record in the middle row is bumped, add raises
    IndexError; the history has lost a record and stays locked *)
Definition ops3 : list hop := [addp 1; addn 2; addp 3].
Theorem C35_capacity3_refuted : let h := run 3 ops3 in
  locked h = false /\ snd (hstep hash0 h (addn 4)) = Exc IndexError /\
  locked (fst (hstep hash0 h (addn 4))) = true /\ length (K (fst (hstep hash0 h (addn 4)))) = 2.
Proof. vm_compute. auto. Qed.
(** capacity 1: the second add raises IndexError, or ValueError when the first
    record is a member's *)
Theorem C35_capacity1_refuted : snd (hstep hash0 (run 1 [addn 1]) (addn 2)) = Exc IndexError /\
  snd (hstep hash0 (run 1 [addp 1]) (addn 2)) = Exc ValueError /\ locked (fst (hstep hash0 (run 1 [addn 1]) (addn 2))) = true.
Proof. vm_compute. auto. Qed.
(** all rows held by population members: ValueError, and the lock is lost *)
Theorem C35_all_members_refuted : forall hash nd nm ops h i never o, reach hash nd nm ops h -> fit_ind nd i -> locked h = false ->
  length (K h) = nmax h -> (forall r, In r (K h) -> In r (Kp h)) ->
  h_add hash h (iSSE i) i never o = (lockit h, Exc ValueError).
Proof.
  intros hash nd nm ops h i never o R G U F A. destruct (reach_inv _ _ _ _ _ R) as [I End].
  assert (G' : good h i) by (unfold good; rewrite End; exact G). destruct (add_spec hash h i never o I G' U) as [_ B]. specialize (B F).
  assert (C : cK (cp h) = []).
  { destruct (cK (cp h)) as [|r l] eqn:E; auto. exfalso. apply (i_disj h I r); [|rewrite E; now left].
    apply A. apply (i_cover h I). right. rewrite E. now left. }
  unfold cpf_call in B. rewrite C in B. cbn in B. tauto.
Qed.
Example C35_all_members_example : let h := run 2 [addp 1; addp 2] in
  length (K h) = nmax h /\ locked h = false /\ snd (hstep hash0 h (addn 3)) = Exc ValueError /\ locked (fst (hstep hash0 h (addn 3))) = true.
Proof. vm_compute. auto. Qed.
(** after purgePop left a gap, add overwrites a live record: row 2 held the
    record with SSE 3 and now holds that with SSE 4, twice in the roster *)
Theorem C35_gap_refuted : let h := run 5 [addn 1; addp 2; addn 3; OPurgePop] in let h' := fst (hstep hash0 h (addn 4)) in
  K h = [0; 2] /\ feqb (h_sse h 2) (fz 3) = true /\ snd (hstep hash0 h (addn 4)) = Ret (Some 2) /\
  K h' = [0; 2; 2] /\ feqb (h_sse h' 2) (fz 4) = true.
Proof. vm_compute. auto. Qed.
(** a finite SSE beyond the range of single precision: OverflowError for a
    member, ValueError for a non-member; the history stays locked *)
Definition huge : ind := mkInd (flit 1 128) [fz 1].
Theorem C35_overflow_refuted : isfin (iSSE huge) = true /\
  snd (h_add hash0 (h_init 1 10) (iSSE huge) huge false o0) = Exc OverflowError /\
  snd (h_add hash0 (h_init 1 10) (iSSE huge) huge true o0) = Exc ValueError /\
  locked (fst (h_add hash0 (h_init 1 10) (iSSE huge) huge true o0)) = true.
Proof. vm_compute. auto. Qed.
(** the SSE becoming infinite (blacklisting) while add waits for the lock: the
    record is stored with infinite SSE in the position of its former SSE, so the
    roster is not sorted *)
Theorem C31_blacklisted_while_waiting_refuted :
  let h := run 10 [addp 1; addp 3; OAdd (fz 2) (mkInd finf [fz 7]) false o0] in
  K h = [0; 2; 1] /\ fltb (h_sse h 1) (h_sse h 2) = true.
Proof. vm_compute. auto. Qed.
(** notInPop with a row index leaves the individual's entry in the map, so that
    a later notInPop with the individual takes the protection of another one:
    record 3, added as a member, is bumped though nobody asked for it *)
Theorem C32_row_index_refuted :
  let ops := [addp 1; ONotInRow 0; addp 2; addp 3; ONotIn (an 1); addp 4] in
  let h := run 2 [addp 1; ONotInRow 0; addp 2; addp 3] in let h' := run 2 ops in
  feqb (h_sse h 0) (fz 3) = true /\ mem 0 (Kp h) = true /\ Forall (fun op => match op with ONotIn j => hash0 j <> hash0 (an 3) | _ => True end) ops /\
  feqb (h_sse h' 0) (fz 4) = true /\ existsb (fun r => feqb (h_sse h' r) (fz 3)) (K h') = false.
Proof.
  split; [vm_compute; reflexivity|]. split; [vm_compute; reflexivity|]. split.
  - repeat constructor. vm_compute. discriminate.
  - split; vm_compute; reflexivity.
Qed.

(** ** C36 *)
Lemma u2_id : forall n, (Z.of_nat n < 65536)%Z -> u2 n = n.
Proof. intros n H. unfold u2. rewrite N.mod_small by lia. apply Nnat.Nat2N.id. Qed.
Lemma map_u2 : forall l m, (forall r, In r l -> r < m) -> (Z.of_nat m <= 65536)%Z -> map u2 l = l.
Proof. intros l m H Hm. rewrite <- (map_id l) at 2. apply map_ext_in. intros r Hr. apply u2_id. specialize (H r Hr). lia. Qed.
Lemma rebuild_ok : forall Xr P Q L c, (forall r, In r L -> forallb isfin (Xr r) = true) ->
  exists c', rebuild Xr P Q c L = Ok c' /\
  (forall r, In r (cK c') <-> In r (cK c) \/ (In r L /\ ~ In r P)) /\
  (forall r, In r (cKn c') <-> In r (cKn c) \/ (In r L /\ ~ In r P /\ In r Q)).
Proof.
  intros Xr P Q. induction L as [|k L IH]; intros c F; cbn [rebuild].
  - exists c. split; auto. simpl. split; intros; tauto.
  - destruct (mem k P) eqn:M.
    + destruct (IH c) as (c' & E & A & B); [intros; apply F; now right|]. apply mem_spec in M. exists c'. split; auto. split; intros r.
      * rewrite A. simpl. intuition; subst; tauto.
      * rewrite B. simpl. intuition; subst; tauto.
    + apply mem_false in M. unfold set_row. rewrite F by (now left). cbn [bind].
      destruct (IH (mkCpf (sadd k (cK c)) (if mem k Q then sadd k (cKn c) else cKn c))) as (c' & E & A & B); [intros; apply F; now right|].
      exists c'. split; auto. cbn [cK cKn] in *. split; intros r.
      * rewrite A, in_sadd. simpl. intuition; subst; auto.
      * rewrite B. destruct (mem k Q) eqn:Mq; [apply mem_spec in Mq; rewrite in_sadd|apply mem_false in Mq]; simpl; intuition; subst; auto; tauto.
Qed.

(** C36: pickling and unpickling a reachable history of capacity at most 65536
    succeeds and gives the same names, capacity, total, rows and roster, the same
    membership classes, individual map and pair finder row sets; and the lock is
    free, also if it had been lost *)
Theorem C36_pickle : forall hash nd nm ops h, reach hash nd nm ops h -> (Z.of_nat (nmax h) <= 65536)%Z ->
  exists h', setstate (getstate h) = Ok h' /\ Nd h' = Nd h /\ nmax h' = nmax h /\ total h' = total h /\ X h' = X h /\ K h' = K h /\
    (forall r, In r (Kp h') <-> In r (Kp h)) /\ (forall r, In r (Kn h') <-> In r (Kn h)) /\ krd h' = krd h /\
    (forall r, In r (cK (cp h')) <-> In r (cK (cp h))) /\ (forall r, In r (cKn (cp h')) <-> In r (cKn (cp h))) /\ locked h' = false.
Proof.
  intros hash nd nm ops h R Hm. destruct (reach_inv _ _ _ _ _ R) as [I _]. destruct (C33_classes _ _ _ _ _ R) as (C1 & C2 & C3 & C4).
  assert (Lt : forall r, In r (K h) -> r < nmax h) by (intros r Hr; apply (i_rows h I) in Hr; assert (H := i_len h I); lia).
  unfold setstate, getstate. cbn [pk_Nd pk_nmax pk_total pk_X pk_K pk_Kp pk_Kn pk_kr].
  rewrite (map_u2 (K h) (nmax h)) by auto. rewrite (map_u2 (Kp h) (nmax h)); [|intros r Hr; apply Lt; now apply C1|auto].
  rewrite (map_u2 (Kn h) (nmax h)); [|intros r Hr; apply Lt; now apply C2|auto].
  destruct (rebuild_ok (X h) (Kp h) (Kn h) (K h) cpf_clear) as (c & E & A & B); [intros r Hr; now apply (i_data h I)|].
  rewrite E. eexists. split; [reflexivity|]. cbn [Nd nmax total X K Kp Kn krd cp locked]. repeat (split; [reflexivity|]).
  split; [intros; apply nodup_In|]. split; [intros; apply nodup_In|]. split; [reflexivity|]. split; [|split; [|reflexivity]].
  - intros r. rewrite A, C3. simpl. tauto.
  - intros r. rewrite B, C4. simpl. split; [tauto|]. intros Hr. right. split; [auto|]. split; [|auto]. intros Hp. now apply C1 in Hp.
Qed.
(** beyond that capacity the index lists are damaged: a roster of more than
    65536 rows is restored with a row twice *)
Theorem C36_capacity_refuted : forall hash nd nm ops h, reach hash nd nm ops h -> (65536 < Z.of_nat (length (K h)))%Z ->
  ~ NoDup (pk_K (getstate h)).
Proof.
  intros hash nd nm ops h R Hl ND. destruct (reach_inv _ _ _ _ _ R) as [I _]. unfold getstate in ND. cbn [pk_K] in ND.
  set (b := Z.to_nat 65536). assert (Hb : b < length (K h)) by (unfold b; lia).
  assert (I0 : In 0 (K h)) by (apply (i_rows h I); lia). assert (Ib : In b (K h)) by (apply (i_rows h I); auto).
  apply In_nth with (d := 0) in I0. apply In_nth with (d := 0) in Ib. destruct I0 as (a & La & Ea). destruct Ib as (c & Lc & Ec).
  assert (Hac : a = c).
  { apply (proj1 (NoDup_nth (map u2 (K h)) (u2 0)) ND); rewrite ?map_length; auto. rewrite !map_nth, Ea, Ec.
    unfold u2, b. rewrite Z_nat_N. reflexivity. }
  subst c. rewrite Ea in Ec. unfold b in Ec. lia.
Qed.
(** The map from individuals to rows is keyed by hash(i), which Python salts per
    process.  In a process whose hash of the individual is not a key of the
    restored map, notInPop does nothing: the record stays protected *)
Theorem C36_other_process_refuted : forall hash' h i, zget (krd h) (hash' i) = None -> locked h = false -> pack_overflow i = false ->
  not_in_pop hash' h i = (h, Ret None).
Proof. intros hash' h i Z U P. unfold not_in_pop. now rewrite U, P, Z. Qed.
(** ... so a restored history whose members all leave can still be full of
    members and fail, where without pickling it works *)
Definition hash1 (i : ind) : Z := (ftrunc (iSSE i) + 1000)%Z.
Definition leave : list hop := [ONotIn (an 1); ONotIn (an 2)].
Example C36_other_process_example : let h := run 2 [addp 1; addp 2] in
  match setstate (getstate h) with
  | Ok h1 => snd (hstep hash0 (hexec hash0 h1 leave) (addp 3)) = Ret (Some 0) /\
             snd (hstep hash1 (hexec hash1 h1 leave) (addp 3)) = Exc ValueError /\
             locked (fst (hstep hash1 (hexec hash1 h1 leave) (addp 3))) = true
  | Raise _ => False
  end.
Proof. vm_compute. auto. Qed.

(** ** C37 *)
Theorem C37_pairs_all : forall L, NoDup L -> NoDup (pairs_all L) /\ 2 * length (pairs_all L) = length L * (length L - 1) /\
  forall a b, In (a, b) (pairs_all L) <-> In a L /\ In b L /\ a < b.
Proof. intros L H. split; [now apply pairs_all_nodup|]. split; [now apply pairs_all_length|]. intros. apply in_pairs_all. Qed.
Theorem C37_pairs_sampled : forall L draw fuel c N S, L <> [] -> pairs_sampled L draw fuel c N = Some S ->
  length S = N /\ forall a b, In (a, b) S -> In a L /\ In b L /\ a < b.
Proof. intros L draw fuel c N S NE E. eapply pairs_sampled_spec; eauto. Qed.
(** the row selected is active and, with two or more active rows, not the
    highest-numbered one *)
Theorem C37_selected_row : forall Np c o r, NoDup (cK c) -> 0 < Np -> cpf_call Np c o = Some (Ok r) ->
  In r (cK c) /\ (2 <= length (cK c) -> exists r', In r' (cK c) /\ r < r').
Proof. intros Np c o r ND HN E. assert (H := cpf_call_spec Np c o ND HN). now rewrite E in H. Qed.
(** ... so the most recently allocated highest row is never bumped as long as
    another non-member record exists, even if it is the worst one *)
Theorem C37_highest_never_bumped : forall hash nd nm ops h i never o r h' top, reach hash nd nm ops h -> fit_ind nd i ->
  length (K h) = nmax h -> h_add hash h (iSSE i) i never o = (h', Ret (Some r)) ->
  (forall x, In x (K h) -> ~ In x (Kp h) -> x <= top) -> (exists x, In x (K h) /\ ~ In x (Kp h) /\ x <> top) -> r <> top.
Proof.
  intros hash nd nm ops h i never o r h' top R G Fu E Top (x & Hx & Hp & Hn). destruct (reach_inv _ _ _ _ _ R) as [I End]. subst nd.
  assert (G' : good h i) by exact G. destruct (locked h) eqn:U.
  { unfold h_add in E. destruct G as (_ & Gf & _). rewrite Gf, U in E. discriminate. }
  destruct (add_spec hash h i never o I G' U) as [_ B]. specialize (B Fu).
  assert (C := cpf_call_spec Np_max (cp h) o (i_cnd h I) ltac:(apply Nat.ltb_lt; reflexivity)).
  destruct (cpf_call Np_max (cp h) o) as [[g|e]|].
  - destruct B as (Hg & h2 & E2 & _). rewrite E2 in E. injection E as <- <-. intros ->.
    assert (Xc : In x (cK (cp h))) by (apply (C33_classes _ _ _ _ _ R); auto).
    destruct C as [_ C]. destruct C as (r' & Hr' & Lt).
    { destruct (cK (cp h)) as [|a [|b l]] eqn:Ec; simpl; try lia; simpl in *; intuition congruence. }
    apply (C33_classes _ _ _ _ _ R) in Hr'. destruct Hr' as [Hr1 Hr2]. specialize (Top r' Hr1 Hr2). lia.
  - destruct B as (_ & _ & E2). rewrite E2 in E. discriminate.
  - destruct B as (_ & E2). rewrite E2 in E. discriminate.
Qed.

(** ** non-vacuity *)
Lemma an_fit : forall n, isfin (rnd32 (fz n)) && isfin (rnd32 (fz (2 * n))) && isfin (fz n) = true -> fit_ind 1 (an n).
Proof.
  intros n H. apply andb_true_iff in H. destruct H as [H H3]. apply andb_true_iff in H. destruct H as [H1 H2].
  split; [reflexivity|]. split; [exact H3|]. split; [exact H1|]. constructor; [exact H2|constructor].
Qed.
Definition opsx : list hop := [addp 5; addn 2; addp 9; OAdd finf (mkInd finf [fz 1]) false o0; ONotIn (an 5); addn 7; addp 1; addn 8].
Example reach_example : reach hash0 1 4 opsx (run 4 opsx) /\ length (K (run 4 opsx)) = 4 /\ K (run 4 opsx) = [1; 3; 0; 2] /\
  Kp (run 4 opsx) = [2; 1].
Proof.
  split; [|vm_compute; auto]. split; [lia|]. split; [|reflexivity].
  unfold opsx, addp, addn. repeat (constructor; [cbn [okop];
    first [right; split; [reflexivity|apply an_fit; vm_compute; reflexivity]|left; vm_compute; reflexivity|vm_compute; reflexivity|exact Logic.I]|]).
  constructor.
Qed.
Example C34_example : fit_ind 1 (an 6) /\ snd (h_add hash0 (run 4 opsx) (fz 6) (an 6) true o0) = Ret (Some 0).
Proof. split; [apply an_fit; vm_compute; reflexivity|vm_compute; reflexivity]. Qed.
Example C34_example_nonfinite : isfin fnan = false /\ isfin finf = false.
Proof. split; reflexivity. Qed.
Example C32_example : Forall (keeps hash0 (hash0 (an 6))) [addp 3; ONotIn (an 9); addn 2] /\ Forall (okop 1) [addp 3; ONotIn (an 9); addn 2].
Proof.
  split.
  - repeat constructor. vm_compute. discriminate.
  - unfold addp, addn. repeat (constructor; [cbn [okop];
    first [right; split; [reflexivity|apply an_fit; vm_compute; reflexivity]|left; vm_compute; reflexivity|vm_compute; reflexivity|exact Logic.I]|]).
    constructor.
Qed.
Example C33_example : selected (run 4 opsx) SInPop (fz 1000) = Ok [1; 2] /\ selected (run 4 opsx) SNeverInPop (fz 1000) = Ok [3; 0] /\
  selected (run 4 opsx) SAny (fz 7) = Ok [1; 3].
Proof. vm_compute. auto. Qed.
Example C36_example : (Z.of_nat (nmax (run 4 opsx)) <= 65536)%Z.
Proof. vm_compute. discriminate. Qed.
Example C37_example : pairs_all [3; 1; 4] = [(3, 4); (1, 3); (1, 4)] /\
  pairs_sampled [3; 1] (fun _ j => j + 1) 3 0 2 = Some [(1, 3); (1, 3)] /\
  cpf_call Np_max (mkCpf [3; 1; 4] [1]) o0 = Some (Ok 3).
Proof. vm_compute. auto. Qed.
Example C37_example_highest : let h := run 4 opsx in K h = [1; 3; 0; 2] /\ length (K h) = nmax h /\
  (forall x, In x (K h) -> ~ In x (Kp h) -> x <= 3) /\ (exists x, In x (K h) /\ ~ In x (Kp h) /\ x <> 3).
Proof.
  split; [vm_compute; reflexivity|]. split; [vm_compute; reflexivity|].
  replace (K (run 4 opsx)) with [1; 3; 0; 2] by (vm_compute; reflexivity).
  replace (Kp (run 4 opsx)) with [2; 1] by (vm_compute; reflexivity). split.
  - intros x H _. simpl in H. lia.
  - exists 0. simpl. lia.
Qed.

Print Assumptions C31_roster.
Print Assumptions C31_capacity.
Print Assumptions C31_blacklisted_while_waiting_refuted.
Print Assumptions C32_bumps_nonmembers.
Print Assumptions C32_members_stay.
Print Assumptions C32_row_index_refuted.
Print Assumptions C33_classes.
Print Assumptions C33_selections.
Print Assumptions C34_nonfinite_ignored.
Print Assumptions C34_add.
Print Assumptions C35_only_failure.
Print Assumptions C35_locked_forever.
Print Assumptions C35_capacity3_refuted.
Print Assumptions C35_capacity1_refuted.
Print Assumptions C35_all_members_refuted.
Print Assumptions C35_gap_refuted.
Print Assumptions C35_overflow_refuted.
Print Assumptions C36_pickle.
Print Assumptions C36_capacity_refuted.
Print Assumptions C36_other_process_refuted.
Print Assumptions C37_pairs_all.
Print Assumptions C37_pairs_sampled.
Print Assumptions C37_selected_row.
Print Assumptions C37_highest_never_bumped.

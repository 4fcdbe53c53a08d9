(** Proofs about SetupModel.v *)
From Coq Require Import String List Bool Arith Lia.
From Flocq Require Import BinarySingleNaN.
From Verif Require Import Flt Py IndivModel IndivProofs ParamModel ParamProofs SetupModel.
Import ListNotations.
Local Open Scope nat_scope.
#[local] Arguments fadd : simpl never.
#[local] Arguments fsub : simpl never.
#[local] Arguments fmul : simpl never.
#[local] Arguments fltb : simpl never.
#[local] Arguments fleb : simpl never.
#[local] Arguments feqb : simpl never.
#[local] Arguments fofZ : simpl never.
#[local] Arguments flit : simpl never.

(** what a library matrix looks like: Np rows of numbers in [0,1], one per
    parameter *)
Definition unit_rows (p : pm) (Np : nat) (M : list (list f64)) : Prop :=
  length M = Np /\ forall u, In u M -> length u = length (pm_mins p) /\
    Forall (fun x => fleb fzero x = true /\ fleb x fone = true) u.

(** raw candidate values that can be limited *)
Definition okraw (p : pm) (v : list f64) : Prop :=
  length v = length (pm_mins p) /\ Forall (fun x => isnan x = false) v.

Lemma from_unity_ok : forall p Np M u, okpm p -> unit_rows p Np M -> In u M -> okraw p (from_unity p u).
Proof.
  intros p Np M u Hp [_ HM] Hu. destruct (HM u Hu) as [L F]. destruct Hp as [Lp Hb].
  unfold from_unity. split; [apply map3_length; auto|].
  apply Forall_forall. intros x Hx. apply In_nth_error in Hx. destruct Hx as [k Hk].
  assert (Hlt : k < length (pm_mins p)).
  { rewrite <- (map3_length fromUnity1 (pm_mins p) (pm_maxs p) u); auto. apply nth_error_Some. congruence. }
  destruct (nth_error (pm_mins p) k) as [lo|] eqn:E1; [|apply nth_error_None in E1; lia].
  destruct (nth_error (pm_maxs p) k) as [hi|] eqn:E2; [|apply nth_error_None in E2; lia].
  destruct (nth_error u k) as [y|] eqn:E3; [|apply nth_error_None in E3; lia].
  rewrite (map3_nth _ _ _ _ _ _ _ _ E1 E2 E3) in Hk. injection Hk as <-.
  destruct (Hb k lo hi E1 E2) as (A & B & C).
  rewrite Forall_forall in F. destruct (F y (nth_error_In _ _ E3)) as [F0 F1].
  destruct (fromUnity_float lo hi y A B C F0 F1) as [G _]. apply fleb_nan in G. apply G.
Qed.

Lemma remove_n_In : forall n m l, In m (remove_n n l) <-> In m l /\ m <> n.
Proof.
  intros n m l. unfold remove_n. rewrite filter_In. rewrite negb_true_iff, Nat.eqb_neq. tauto.
Qed.
Lemma remove_n_len : forall n l, length (remove_n n l) <= length l.
Proof. intros n l. unfold remove_n. induction l; simpl; auto. destruct (negb (a =? n)); simpl; lia. Qed.
Lemma remove_n_lt : forall n l, In n l -> length (remove_n n l) < length l.
Proof.
  intros n l. induction l as [|a l IH]; simpl; [tauto|]. intros [->|H].
  - rewrite Nat.eqb_refl. simpl. assert (X := remove_n_len n l). unfold remove_n in *. lia.
  - specialize (IH H). destruct (negb (a =? n)); simpl; unfold remove_n in *; lia.
Qed.
Lemma remove_n_not : forall n l, ~ In n l -> remove_n n l = l.
Proof.
  intros n l. induction l as [|a l IH]; simpl; auto. intros H. destruct (Nat.eqb_spec a n) as [->|N]; [tauto|].
  cbn [negb]. now rewrite IH by tauto.
Qed.
Lemma remove_n_comm : forall n m l, remove_n n (remove_n m l) = remove_n m (remove_n n l).
Proof.
  intros n m l. induction l as [|a l IH]; simpl; auto.
  destruct (negb (a =? n)) eqn:E1, (negb (a =? m)) eqn:E2; cbn [remove_n filter]; rewrite ?E1, ?E2; auto.
  - now f_equal.
Qed.
Lemma remove_n_app : forall n l l', remove_n n (l ++ l') = remove_n n l ++ remove_n n l'.
Proof. intros. unfold remove_n. apply filter_app. Qed.
Lemma remove_n_self : forall n, remove_n n [n] = [].
Proof. intros. cbn [remove_n filter]. now rewrite Nat.eqb_refl. Qed.
Lemma remove_n_NoDup : forall n l, NoDup l -> NoDup (remove_n n l).
Proof. intros. unfold remove_n. now apply NoDup_filter. Qed.
Lemma NoDup_add : forall (l : list nat) n, NoDup l -> ~ In n l -> NoDup (l ++ [n]).
Proof.
  intros l n H N. induction H as [|a l A H IH]; simpl; [repeat constructor; auto|].
  constructor; [|apply IH; simpl in N; tauto]. rewrite in_app_iff. simpl in *. intuition congruence.
Qed.
Lemma existsb_n : forall n l, existsb (Nat.eqb n) l = true <-> In n l.
Proof.
  intros n l. rewrite existsb_exists. split.
  - intros (x & H & E). apply Nat.eqb_eq in E. now subst.
  - intros H. exists n. split; auto. apply Nat.eqb_refl.
Qed.

Section Proofs.
Variable p : pm.
Variable cs : list constr.
Variable Np maxPar maxTries : nat.
Variable blank : bool.
Variable iv : nat -> list (list f64).
Hypothesis Hp : okpm p.
Hypothesis HNp : 2 <= Np.
Hypothesis Hpar : 1 <= maxPar.
Hypothesis Htr : 1 <= maxTries.
Hypothesis Hiv : forall g, unit_rows p Np (iv g).

Definition passes := passesConstraints (pm_names p) cs.
Definition step := sstep p cs Np maxPar maxTries blank iv.

Lemma next_iv_ok : forall x, src_k x < Np -> exists x' v,
  next_iv p iv x = (x', Ok v) /\ src_k x' < Np /\ okraw p v.
Proof.
  intros x Hx. unfold next_iv. rewrite (proj1 (Hiv (src_g x))).
  set (y := if src_k x + 1 =? Np then mkSrc 0 (S (src_g x)) else x).
  assert (Hy : S (src_k y) < Np).
  { unfold y. destruct (Nat.eqb_spec (src_k x + 1) Np); simpl; lia. }
  destruct (nth_error (iv (src_g y)) (src_k y)) as [u|] eqn:E.
  - do 2 eexists. split; [reflexivity|]. split; [exact Hy|].
    eapply from_unity_ok; eauto. eapply nth_error_In; eauto.
  - apply nth_error_None in E. rewrite (proj1 (Hiv (src_g y))) in E. lia.
Qed.

Lemma tries_ok : forall n x last, src_k x < Np -> (forall v, last = Some v -> okraw p v) -> (n = 0 -> last <> None) ->
  exists x', src_k x' < Np /\
  ((exists v, tries p cs iv n x last = (x', Ok (v, true)) /\ okraw p v /\ passes v = Ok true) \/
   (exists v, tries p cs iv n x last = (x', Ok (v, false)) /\ okraw p v) \/
   (exists v e, tries p cs iv n x last = (x', Raise e) /\ passes v = Raise e)).
Proof.
  induction n as [|n IH]; intros x last Hx HL H0.
  - simpl. exists x. split; auto. destruct last as [v|]; [|now contradiction H0].
    right; left. eauto.
  - destruct (next_iv_ok x Hx) as (x' & v & E & Hx' & Hv). cbn [tries]. rewrite E.
    fold (passes v). destruct (passes v) as [[]|e] eqn:P.
    + exists x'. split; auto. left. eauto.
    + apply IH; auto; try discriminate. intros w [= <-]. auto.
    + exists x'. split; auto. right; right. eauto.
Qed.

(** the source when nothing is ever rejected *)
Lemma tries_free : forall n x, cs = [] -> 0 < n -> src_k x < Np -> exists u,
  let y := if src_k x + 1 =? Np then mkSrc 0 (S (src_g x)) else x in
  nth_error (iv (src_g y)) (src_k y) = Some u /\
  tries p cs iv n x None = (mkSrc (S (src_k y)) (src_g y), Ok (from_unity p u, true)).
Proof.
  intros n x Hc Hn Hx. destruct n as [|n]; [lia|]. cbn [tries]. unfold next_iv. rewrite (proj1 (Hiv (src_g x))).
  set (y := if src_k x + 1 =? Np then mkSrc 0 (S (src_g x)) else x).
  destruct (nth_error (iv (src_g y)) (src_k y)) as [u|] eqn:E.
  - exists u. split; auto. rewrite Hc. reflexivity.
  - apply nth_error_None in E. rewrite (proj1 (Hiv (src_g y))) in E.
    exfalso. unfold y in E. destruct (Nat.eqb_spec (src_k x + 1) Np); simpl in E; lia.
Qed.

(** the invariant; [cm]: individuals complained about after their evaluation *)
Record inv (cm : list nat) (s : sst) : Prop := mkInv {
  i_len : length (s_list s) <= Np;
  i_nd : NoDup (s_list s);
  i_lt : forall n, In n (s_list s) -> n < length (s_inds s);
  i_dis : forall n, In n (s_list s) -> ~ In n (s_fly s);
  i_fnd : NoDup (s_fly s);
  i_flt : forall n, In n (s_fly s) -> n < length (s_inds s);
  i_src : src_k (s_src s) < Np;
  i_bnd : forall n i, nth_error (s_inds s) n = Some i -> exists v, okraw p v /\ ivalues i = pm_limit p v /\
            (is_run (s_run s) = true -> passes v = Ok true);
  i_ok : forall n i, In n (s_list s) -> nth_error (s_inds s) n = Some i ->
           if blank then istored i = Some finf
           else istored i <> None /\ (In n cm \/ ind_bool i = true /\ isinf (ind_SSE i) = false);
  i_bl : blank = true -> s_args s = [] /\ s_fly s = [];
  i_pc : match s_pc s with
         | PHead => s_trk s = s_fly s /\ length (s_fly s) < maxPar
         | PFewer => s_trk s = s_fly s /\ length (s_fly s) <= maxPar
         | PWait n => s_trk s = remove_n n (s_fly s) /\ length (s_trk s) < maxPar /\ length (s_fly s) <= maxPar
         | PAll => s_trk s = s_fly s /\ length (s_fly s) <= maxPar /\ (is_run (s_run s) = true -> length (s_list s) = Np)
         | PFired r => s_trk s = s_fly s /\ s_fly s = [] /\
                       match r with Some true => length (s_list s) = Np | Some false => False | None => s_run s = Some false end
         | PFailed e => s_trk s = s_fly s /\ length (s_fly s) <= maxPar /\ exists v, passes v = Raise e
         end
}.

Lemma inv_start : forall run, inv [] (setup_start run).
Proof.
  intros run. unfold setup_start. destruct (is_run run) eqn:E; constructor; cbn; try tauto; try lia; try constructor;
    try (intros [|n] i; discriminate); try (intros n i []; fail); auto.
  split; auto. destruct run as [[]|]; auto; discriminate.
Qed.

Lemma inv_abort : forall cm s, inv cm s -> inv cm (s_abort s).
Proof.
  intros cm s [H1 H2 H3 H4 H5 H6 H7 H8 H9 H10 H11]. constructor; cbn; auto.
  - intros n i E. destruct (H8 n i E) as (v & A & B & _). exists v. repeat split; auto; try apply A. discriminate.
  - destruct (s_pc s) as [| |m| |[[]|]|e]; intuition auto; try discriminate.
Qed.

Lemma nth_snoc : forall A (l : list A) x n y, nth_error (l ++ [x]) n = Some y ->
  nth_error l n = Some y \/ n = length l /\ x = y.
Proof.
  intros A l x n y H. destruct (lt_dec n (length l)).
  - rewrite nth_error_app1 in H; auto.
  - rewrite nth_error_app2 in H by lia. destruct (n - length l) as [|k] eqn:E; [|destruct k; discriminate].
    right. split; [lia|]. simpl in H. congruence.
Qed.

Lemma limit_new : forall v, okraw p v -> ind_new (length (pm_mins p)) (pm_limit p v) = Ok (mkIndiv (pm_limit p v) None None).
Proof.
  intros v [L N]. unfold ind_new. rewrite (proj1 (pm_limit_in p v Hp L N)), Nat.eqb_refl. reflexivity.
Qed.

Lemma inv_head : forall cm s, inv cm s -> s_pc s = PHead -> inv cm (head p cs Np maxTries blank iv s).
Proof.
  intros cm s I Epc. unfold head.
  destruct (negb (is_run (s_run s)) || negb (length (s_list s) <? Np)) eqn:C.
  { destruct I as [H1 H2 H3 H4 H5 H6 H7 H8 H9 H10 H11]. rewrite Epc in H11.
    constructor; cbn; auto. split; [tauto|]. split; [lia|]. intros R. rewrite R in C. cbn in C.
    apply negb_true_iff, Nat.ltb_ge in C. lia. }
  apply orb_false_iff in C. destruct C as [C1 C2]. apply negb_false_iff in C1, C2. apply Nat.ltb_lt in C2.
  destruct (tries_ok maxTries (s_src s) None (i_src _ _ I)) as (x & Hx & Hcase); try congruence; try lia.
  assert (Hind : forall v s', okraw p v -> inv cm s' -> s_pc s' = PHead -> length (s_list s') < Np ->
     (is_run (s_run s') = true -> passes v = Ok true) ->
     inv cm match ind_new (length (pm_mins p)) (pm_limit p v) with
      | Raise e => set_pc s' (PFailed e)
      | Ok i =>
        let n := length (s_inds s') in
        if blank then
          mkS (s_run s') (s_src s') (s_inds s' ++ [ind_setSSE i (Some finf)]) (s_list s' ++ [n])
              (s_fly s') (s_trk s') (s_k s') (s_args s') PHead
        else
          let a := eval_arg (mkEvpop (s_run s') 0) i in
          if S (s_k s') <? Np then
            mkS (s_run s') (s_src s') (s_inds s' ++ [i]) (s_list s') (s_fly s' ++ [n]) (s_trk s' ++ [n])
                (S (s_k s')) (a :: s_args s') PFewer
          else
            mkS (s_run s') (s_src s') (s_inds s' ++ [i]) (s_list s') (s_fly s' ++ [n]) (s_trk s')
                (S (s_k s')) (a :: s_args s') (PWait n)
      end).
  { clear s x Hx Hcase I Epc C1 C2. intros v s Hv I Epc Hlen Hpass. rewrite limit_new by auto.
    destruct I as [H1 H2 H3 H4 H5 H6 H7 H8 H9 H10 H11]. rewrite Epc in H11. cbv zeta.
    assert (NL : ~ In (length (s_inds s)) (s_list s)) by (intros K; apply H3 in K; lia).
    assert (NF : ~ In (length (s_inds s)) (s_fly s)) by (intros K; apply H6 in K; lia).
    assert (HB : forall y, ivalues y = pm_limit p v -> forall n i, nth_error (s_inds s ++ [y]) n = Some i ->
      exists w, okraw p w /\ ivalues i = pm_limit p w /\ (is_run (s_run s) = true -> passes w = Ok true)).
    { intros y Hy n i E. apply nth_snoc in E. destruct E as [E|[-> <-]]; eauto. }
    destruct blank eqn:B.
    - constructor; cbn [s_list s_inds s_fly s_trk s_run s_src s_args s_pc s_k]; auto; rewrite ?app_length; cbn [length].
      + lia.
      + now apply NoDup_add.
      + intros n. rewrite in_app_iff. intros [K|[<-|[]]]; [apply H3 in K; lia|lia].
      + intros n. rewrite in_app_iff. intros [K|[<-|[]]]; auto.
      + intros n K. apply H6 in K. lia.
      + apply HB. reflexivity.
      + rewrite B. intros n i K E. apply nth_snoc in E. destruct E as [E|[-> <-]]; [|reflexivity].
        rewrite in_app_iff in K. destruct K as [K|[<-|[]]].
        * eapply H9; eauto.
        * assert (length (s_inds s) < length (s_inds s)) by (apply nth_error_Some; congruence). lia.
    - assert (HA : forall n i, In n (s_list s) -> nth_error (s_inds s ++ [mkIndiv (pm_limit p v) None None]) n = Some i ->
         istored i <> None /\ (In n cm \/ ind_bool i = true /\ isinf (ind_SSE i) = false)).
      { intros n i K E. apply nth_snoc in E. destruct E as [E|[-> <-]]; [eapply H9; eauto|contradiction]. }
      assert (Rm : remove_n (length (s_inds s)) (s_fly s ++ [length (s_inds s)]) = s_fly s).
      { rewrite remove_n_app, remove_n_self, app_nil_r. now apply remove_n_not. }
      destruct H11 as [T1 T2].
      destruct (S (s_k s) <? Np);
      (constructor; cbn [s_list s_inds s_fly s_trk s_run s_src s_args s_pc s_k]; auto; try discriminate; rewrite ?app_length; cbn [length];
       [ intros n K; apply H3 in K; lia
       | intros n K; rewrite in_app_iff; intros [K'|[<-|[]]]; [eapply H4; eauto|contradiction]
       | now apply NoDup_add
       | intros n; rewrite in_app_iff; intros [K|[<-|[]]]; [apply H6 in K; lia|lia]
       | apply HB; reflexivity
       | rewrite B; exact HA
       | congruence
       | ]).
      + split; [congruence|]. lia.
      + rewrite Rm. split; [auto|]. rewrite T1. split; lia. }
  destruct Hcase as [(v & E & Hv & P)|[(v & E & Hv)|(v & e & E & P)]]; rewrite E.
  - apply Hind; auto; try (destruct I as [H1 H2 H3 H4 H5 H6 H7 H8 H9 H10 H11]; constructor; now auto).
  - apply Hind; auto; try discriminate.
    apply inv_abort. destruct I as [H1 H2 H3 H4 H5 H6 H7 H8 H9 H10 H11]; constructor; now auto.
  - destruct I as [H1 H2 H3 H4 H5 H6 H7 H8 H9 H10 H11]. rewrite Epc in H11. constructor; cbn; auto.
    split; [tauto|]. split; [lia|eauto].
Qed.

Lemma upd_get : forall A n (x : A) l m y, nth_error (upd n x l) m = Some y ->
  (m = n /\ y = x) \/ (m <> n /\ nth_error l m = Some y).
Proof.
  intros A n x l m y H. destruct (Nat.eq_dec m n) as [->|N].
  - left. split; auto. assert (K : n < length l).
    { assert (n < length (upd n x l)) by (apply nth_error_Some; congruence). now rewrite upd_length in *. }
    rewrite (upd_same n x l K) in H. congruence.
  - right. split; auto. now rewrite upd_other in H by auto.
Qed.

Lemma inv_done : forall cm s n r t rp, inv cm s -> In n (s_fly s) -> inv cm (eval_done Np s n r t rp).
Proof.
  intros cm s n r t rp I Hn. unfold eval_done.
  destruct (nth_error (s_inds s) n) as [i|] eqn:Ei; auto.
  set (i1 := snd (evaluate (fun _ => r) t (mkEvpop (s_run s) 0) i)).
  assert (V1 : ivalues i1 = ivalues i) by (unfold i1, evaluate; destruct r; reflexivity).
  destruct blank eqn:B.
  { destruct (i_bl _ _ I B) as [_ F]. rewrite F in Hn. destruct Hn. }
  assert (I1 : inv cm (mkS (s_run s) (s_src s) (upd n i1 (s_inds s)) (s_list s) (remove_n n (s_fly s)) (remove_n n (s_trk s))
                 (s_k s) (s_args s) (s_pc s))).
  { destruct I as [H1 H2 H3 H4 H5 H6 H7 H8 H9 H10 H11].
    constructor; cbn [s_list s_inds s_fly s_trk s_run s_src s_args s_pc s_k]; auto; rewrite ?upd_length; auto.
    - intros m K. rewrite remove_n_In. intros [K' _]. eapply H4; eauto.
    - now apply remove_n_NoDup.
    - intros m. rewrite remove_n_In. intros [K _]. auto.
    - intros m j E. apply upd_get in E. destruct E as [[-> ->]|[N E]]; [|eauto].
      rewrite V1. eauto.
    - rewrite B. rewrite B in H9. intros m j K E. apply upd_get in E. destruct E as [[-> ->]|[N E]].
      + exfalso. eapply H4; eauto.
      + eapply H9; eauto.
    - intros K; congruence.
    - assert (Q := remove_n_len n (s_fly s)). assert (Q' := remove_n_lt n (s_fly s) Hn).
      destruct (s_pc s) as [| |m| |[[]|]|e]; cbn.
      + intuition (try congruence; lia).
      + intuition (try congruence; lia).
      + destruct H11 as (T1 & T2 & T3). assert (Q2 := remove_n_len n (s_trk s)).
        split; [rewrite T1; apply remove_n_comm|]. split; lia.
      + intuition (try congruence; lia).
      + destruct H11 as (T1 & T2 & T3). rewrite T2 in Hn. destruct Hn.
      + intuition.
      + destruct H11 as (T1 & T2 & T3). rewrite T2 in Hn. destruct Hn.
      + destruct H11 as (T1 & T2 & T3). split; [congruence|]. split; [lia|auto]. }
  destruct (negb (ind_bool i1)) eqn:Ef; [now apply inv_abort|]. apply negb_false_iff in Ef.
  assert (St : istored i1 <> None \/ ind_SSE i1 = finf).
  { destruct (istored i1) eqn:E; [left; discriminate|]. right. unfold ind_SSE. now rewrite E. }
  assert (Add : forall i2, ivalues i2 = ivalues i -> ind_bool i2 = true -> (istored i2 <> None \/ ind_SSE i2 = finf) ->
    inv cm (mkS (s_run s) (s_src s) (upd n i2 (upd n i1 (s_inds s)))
      (if negb (isinf (ind_SSE i2)) && (length (s_list s) <? Np) then s_list s ++ [n] else s_list s)
      (remove_n n (s_fly s)) (remove_n n (s_trk s)) (s_k s) (s_args s) (s_pc s))).
  { intros i2 V2 B2 S2.
    assert (HD : ~ In n (s_list s)) by (intros K; eapply (i_dis _ _ I); eauto).
    assert (HL : n < length (s_inds s)) by (apply (i_flt _ _ I); auto).
    destruct I1 as [H1 H2 H3 H4 H5 H6 H7 H8 H9 H10 H11].
    cbn [s_list s_inds s_fly s_trk s_run s_src s_args s_pc s_k] in *. rewrite upd_length in *.
    set (b := negb (isinf (ind_SSE i2)) && (length (s_list s) <? Np)).
    assert (Hb : b = true -> isinf (ind_SSE i2) = false /\ length (s_list s) < Np).
    { unfold b. rewrite andb_true_iff, negb_true_iff, Nat.ltb_lt. tauto. }
    assert (HI : forall m, In m (if b then s_list s ++ [n] else s_list s) -> In m (s_list s) \/ m = n /\ b = true).
    { intros m. destruct b; [rewrite in_app_iff; simpl; intuition|auto]. }
    constructor; cbn [s_list s_inds s_fly s_trk s_run s_src s_args s_pc s_k]; auto; rewrite ?upd_length; auto.
    - destruct b; [rewrite app_length; simpl; specialize (Hb eq_refl); lia|auto].
    - destruct b; [now apply NoDup_add|auto].
    - intros m K. apply HI in K. destruct K as [K|[-> _]]; auto.
    - intros m K. apply HI in K. destruct K as [K|[-> _]]; auto. rewrite remove_n_In. tauto.
    - intros m j E. apply upd_get in E. destruct E as [[-> ->]|[N E]]; [|eauto].
      rewrite V2. apply (i_bnd _ _ I n i Ei).
    - rewrite B in *. intros m j K E. apply HI in K. apply upd_get in E. destruct E as [[-> ->]|[N E]].
      + destruct K as [K|[_ K]]; [contradiction|]. destruct (Hb K) as [Hinf _].
        split; [|tauto]. destruct S2 as [S2|S2]; auto. rewrite S2 in Hinf. discriminate.
      + destruct K as [K|[-> _]]; [|congruence]. eapply H9; eauto.
    - assert (Hge : length (s_list s) <= length (if b then s_list s ++ [n] else s_list s))
        by (destruct b; rewrite ?app_length; lia).
      assert (Hle : length (if b then s_list s ++ [n] else s_list s) <= Np)
        by (destruct b; rewrite ?app_length; simpl; [specialize (Hb eq_refl); lia|auto]).
      destruct (s_pc s) as [| |m| |[[]|]|e]; cbn in *; intuition lia. }
  destruct rp.
  - apply Add; auto.
  - apply Add; [exact V1|reflexivity|left; discriminate].
  - exact I1.
Qed.

Definition cm_of (e : sev) (cm : list nat) : list nat := match e with SComplain n => n :: cm | _ => cm end.

Lemma inv_step : forall cm s e s', inv cm s -> step s e = Some s' -> inv (cm_of e cm) s'.
Proof.
  intros cm s e s' I H. unfold step, sstep in H.
  destruct e as [| | | |n r t rp| |n]; cbn [cm_of].
  - destruct (s_pc s) eqn:E; try discriminate. injection H as <-. now apply inv_head.
  - destruct (s_pc s) eqn:E; try discriminate. destruct (length (s_trk s) <? maxPar) eqn:L; [|discriminate].
    injection H as <-. apply Nat.ltb_lt in L. destruct I as [H1 H2 H3 H4 H5 H6 H7 H8 H9 H10 H11]. rewrite E in H11.
    constructor; cbn; auto. intuition congruence.
  - destruct (s_pc s) eqn:E; try discriminate. destruct (existsb (Nat.eqb n) (s_fly s)) eqn:X; [discriminate|].
    injection H as <-. destruct I as [H1 H2 H3 H4 H5 H6 H7 H8 H9 H10 H11]. rewrite E in H11.
    constructor; cbn; auto. destruct H11 as (T1 & T2 & T3). rewrite remove_n_not in T1.
    + split; congruence.
    + intros K. apply existsb_n in K. congruence.
  - destruct (s_pc s) eqn:E; try discriminate. destruct (s_trk s) eqn:T; [|discriminate].
    injection H as <-. destruct I as [H1 H2 H3 H4 H5 H6 H7 H8 H9 H10 H11]. rewrite E in H11.
    destruct H11 as (T1 & T2 & T3). unfold finish. destruct (is_run (s_run s)) eqn:R.
    + constructor; cbn; auto. rewrite T in *. intuition auto.
    + constructor; cbn; auto. { rewrite R. auto. } rewrite T in *. intuition auto. destruct (s_run s) as [[]|]; auto; discriminate.
  - destruct (existsb (Nat.eqb n) (s_fly s)) eqn:X; [|discriminate]. injection H as <-. apply existsb_n in X. now apply inv_done.
  - injection H as <-. now apply inv_abort.
  - destruct (nth_error (s_inds s) n) as [i|] eqn:Ei; [|discriminate].
    destruct (existsb (Nat.eqb n) (s_fly s)) eqn:X; [discriminate|]. injection H as <-.
    destruct I as [H1 H2 H3 H4 H5 H6 H7 H8 H9 H10 H11].
    constructor; cbn [s_list s_inds s_fly s_trk s_run s_src s_args s_pc s_k]; auto; rewrite ?upd_length; auto.
    + intros m j E. apply upd_get in E. destruct E as [[-> ->]|[N E]]; eauto. cbn. apply H8 with (n := n). auto.
    + intros m j K E. apply upd_get in E. destruct E as [[-> ->]|[N E]].
      * destruct blank; [reflexivity|]. split; [discriminate|left; now left].
      * specialize (H9 m j K E). destruct blank; auto. simpl. intuition.
Qed.

Fixpoint complained (es : list sev) (cm : list nat) : list nat :=
  match es with [] => cm | e :: es => complained es (cm_of e cm) end.
Lemma complained_In : forall es cm n, In n (complained es cm) -> In n cm \/ In (SComplain n) es.
Proof.
  induction es as [|e es IH]; simpl; auto. intros cm n H. apply IH in H. destruct H as [H|H]; auto.
  destruct e; simpl in *; intuition; subst; auto.
Qed.

Definition exec := sexec p cs Np maxPar maxTries blank iv.
Lemma inv_exec : forall es cm s s', inv cm s -> exec s es = Some s' -> inv (complained es cm) s'.
Proof.
  unfold exec. induction es as [|e es IH]; simpl; intros cm s s' I H.
  - injection H as <-. auto.
  - destruct (sstep p cs Np maxPar maxTries blank iv s e) as [s1|] eqn:E; [|discriminate].
    eapply IH; eauto. now apply (inv_step cm s).
Qed.
Lemma inv_reach : forall run es s, exec (setup_start run) es = Some s -> inv (complained es []) s.
Proof. intros run es s H. eapply inv_exec; eauto. apply inv_start. Qed.

(** *** aborting *)
Lemma head_run : forall s, s_run s = Some false -> s_pc s = PHead -> s_run (head p cs Np maxTries blank iv s) = Some false /\
  s_pc (head p cs Np maxTries blank iv s) = PAll /\ s_fly (head p cs Np maxTries blank iv s) = s_fly s /\
  s_trk (head p cs Np maxTries blank iv s) = s_trk s /\ s_args (head p cs Np maxTries blank iv s) = s_args s.
Proof. intros s R E. unfold head. rewrite R. cbn. auto. Qed.
Lemma done_run : forall s n r t rp, s_run s = Some false -> s_run (eval_done Np s n r t rp) = Some false.
Proof.
  intros s n r t rp R. unfold eval_done. destruct (nth_error (s_inds s) n); auto.
  destruct (negb _); [reflexivity|]. destruct rp; cbn; auto.
Qed.
Lemma done_pc : forall s n r t rp, s_pc (eval_done Np s n r t rp) = s_pc s.
Proof.
  intros s n r t rp. unfold eval_done. destruct (nth_error (s_inds s) n); auto.
  destruct (negb _); [reflexivity|]. destruct rp; cbn; auto.
Qed.
Lemma done_args : forall s n r t rp, s_args (eval_done Np s n r t rp) = s_args s.
Proof.
  intros s n r t rp. unfold eval_done. destruct (nth_error (s_inds s) n); auto.
  destruct (negb _); [reflexivity|]. destruct rp; cbn; auto.
Qed.

Definition not_fired (q : spc) : Prop := match q with PFired (Some _) => False | _ => True end.
Lemma stopped_step : forall s e s', s_run s = Some false -> not_fired (s_pc s) -> step s e = Some s' ->
  s_run s' = Some false /\ not_fired (s_pc s') /\ s_args s' = s_args s.
Proof.
  intros s e s' R Q H. unfold step, sstep in H. destruct e as [| | | |n r t rp| |n].
  - destruct (s_pc s) eqn:E; try discriminate. injection H as <-. destruct (head_run s R E) as (A & B & C & D & F).
    rewrite B. cbn. auto.
  - destruct (s_pc s) eqn:E; try discriminate. destruct (_ <? _); [|discriminate]. injection H as <-. cbn. auto.
  - destruct (s_pc s) eqn:E; try discriminate. destruct (existsb _ _); [discriminate|]. injection H as <-. cbn. auto.
  - destruct (s_pc s) eqn:E; try discriminate. destruct (s_trk s); [|discriminate]. injection H as <-.
    unfold finish. rewrite R. cbn. auto.
  - destruct (existsb _ _); [|discriminate]. injection H as <-. rewrite done_pc, done_args. split; [now apply done_run|auto].
  - injection H as <-. cbn. auto.
  - destruct (nth_error _ _); [|discriminate]. destruct (existsb _ _); [discriminate|]. injection H as <-. cbn. auto.
Qed.
Lemma stopped_exec : forall es s s', s_run s = Some false -> not_fired (s_pc s) -> exec s es = Some s' ->
  s_run s' = Some false /\ not_fired (s_pc s') /\ s_args s' = s_args s.
Proof.
  unfold exec. induction es as [|e es IH]; simpl; intros s s' R Q H.
  - injection H as <-. auto.
  - destruct (sstep p cs Np maxPar maxTries blank iv s e) as [s1|] eqn:E; [|discriminate].
    destruct (stopped_step s e s1 R Q E) as (A & B & C). destruct (IH _ _ A B H) as (A' & B' & C'). repeat split; auto. congruence.
Qed.

(** a fatal evaluation, or running out of tries, aborts *)
Lemma fatal_aborts : forall s n r t rp s', step s (SDone n r t rp) = Some s' ->
  (forall m, In m (s_fly s) -> m < length (s_inds s)) ->
  match r with EvFailure => True | EvSSE (Some x) => fltb x fzero = true | EvSSE None => False end ->
  s_run s' = Some false.
Proof.
  intros s n r t rp s' H F Hr. unfold step, sstep in H. destruct (existsb _ _) eqn:X; [|discriminate].
  injection H as <-. apply existsb_n in X. apply F in X. unfold eval_done.
  destruct (nth_error (s_inds s) n) as [i|] eqn:E; [|apply nth_error_None in E; lia].
  assert (B : forall j, match istored j with None => False | Some x => fltb x fzero = true end -> ind_bool j = false).
  { intros j. unfold ind_bool. destruct (istored j) as [x|]; [|tauto]. intros L. 
    destruct (isnan x) eqn:N. { apply fltb_nan in L. destruct L; congruence. }
    rewrite fltb_negb in L by (auto; reflexivity). now apply negb_true_iff in L. }
  rewrite B; [reflexivity|]. destruct r as [[x|]|]; cbn; auto; try tauto.
Qed.
Lemma tries_fail : forall n x last, src_k x < Np -> (forall v, last = Some v -> okraw p v) -> (n = 0 -> last <> None) ->
  (forall v, okraw p v -> passes v = Ok false) ->
  exists x' v, tries p cs iv n x last = (x', Ok (v, false)).
Proof.
  induction n as [|n IH]; intros x last Hx HL H0 Hf.
  - simpl. destruct last as [v|]; [|now contradiction H0]. eauto.
  - destruct (next_iv_ok x Hx) as (x' & v & E & Hx' & Hv). cbn [tries]. rewrite E.
    fold (passes v). rewrite (Hf v Hv). apply IH; auto; try discriminate. intros w [= <-]. auto.
Qed.
Lemma unsat_aborts : forall cm s, inv cm s -> s_pc s = PHead -> is_run (s_run s) = true -> length (s_list s) < Np ->
  (forall v, okraw p v -> passes v = Ok false) -> s_run (head p cs Np maxTries blank iv s) = Some false.
Proof.
  intros cm s I E R L Hf. unfold head. rewrite R. apply Nat.ltb_lt in L. rewrite L. cbn [negb orb].
  destruct (tries_fail maxTries (s_src s) None (i_src _ _ I)) as (x & v & T); auto; try congruence; try lia.
  rewrite T. cbv zeta. destruct (ind_new _ _) as [i|]; [|reflexivity]. destruct blank; [reflexivity|].
  destruct (S (s_k (s_abort (set_src s x))) <? Np); reflexivity.
Qed.

(** *** progress *)
Lemma progress : forall cm s, inv cm s -> s_fly s = [] ->
  match s_pc s with PFired _ | PFailed _ => True | _ =>
    exists e s', (e = SHead \/ e = SFewer \/ e = SWaited \/ e = SAll) /\ step s e = Some s' end.
Proof.
  intros cm s I F. assert (Q := i_pc _ _ I). unfold step. destruct (s_pc s) eqn:E; auto.
  - exists SHead. eexists. split; auto. unfold sstep. rewrite E. reflexivity.
  - exists SFewer. eexists. split; auto. unfold sstep. rewrite E. destruct Q as [T _]. rewrite T, F.
    replace (length (@nil nat) <? maxPar) with true; [reflexivity|]. symmetry. apply Nat.ltb_lt. simpl. lia.
  - exists SWaited. eexists. split; auto. unfold sstep. rewrite E, F. reflexivity.
  - exists SAll. eexists. split; auto. unfold sstep. rewrite E. destruct Q as [T _]. rewrite T, F. reflexivity.
Qed.
Lemma stopped_fires : forall cm s, inv cm s -> s_run s = Some false -> s_fly s = [] ->
  not_fired (s_pc s) -> (forall e, s_pc s <> PFailed e) -> exists es s', length es <= 3 /\ exec s es = Some s' /\ s_pc s' = PFired None.
Proof.
  intros cm s I R F Q NF. assert (T := i_pc _ _ I).
  assert (A : forall s, s_run s = Some false -> s_pc s = PAll -> s_trk s = [] -> exists s', exec s [SAll] = Some s' /\ s_pc s' = PFired None).
  { clear. intros s R E T. unfold exec. cbn [sexec]. unfold sstep. rewrite E, T. eexists; split; [reflexivity|]. unfold finish. now rewrite R. }
  assert (B : forall s, s_run s = Some false -> s_pc s = PHead -> s_trk s = [] -> exists s', exec s [SHead; SAll] = Some s' /\ s_pc s' = PFired None).
  { clear - A. intros s R E T. destruct (head_run s R E) as (H1 & H2 & _ & H3 & _).
    destruct (A (head p cs Np maxTries blank iv s)) as (s' & X & Y); auto; [congruence|].
    exists s'. split; auto. unfold exec in *. cbn [sexec] in *. unfold sstep at 1. rewrite E. exact X. }
  destruct (s_pc s) as [| |n| |[b|]|e] eqn:E; cbn in Q; try tauto.
  - destruct T as [T _]. destruct (B s R E) as (s' & X & Y); [congruence|]. eexists _, s'. split; [|split; eauto]. simpl; lia.
  - destruct T as [T _]. destruct (B (set_pc s PHead)) as (s' & X & Y); auto; [cbn; congruence|].
    exists [SFewer; SHead; SAll], s'. split; [simpl; lia|]. split; auto. unfold exec in *. cbn [sexec] in *. unfold sstep at 1. rewrite E, T, F.
    replace (length (@nil nat) <? maxPar) with true; [exact X|]. symmetry. apply Nat.ltb_lt. simpl. lia.
  - destruct T as [T _]. rewrite F in T. destruct (B (set_pc s PHead)) as (s' & X & Y); auto.
    exists [SWaited; SHead; SAll], s'. split; [simpl; lia|]. split; auto. unfold exec in *. cbn [sexec] in *. unfold sstep at 1. rewrite E, F. exact X.
  - destruct T as [T _]. destruct (A s R E) as (s' & X & Y); [congruence|]. eexists _, s'. split; [|split; eauto]. simpl; lia.
  - exists [], s. split; [simpl; lia|]. split; auto.
  - exfalso. eapply NF; eauto.
Qed.

(** *** the rows used *)
Definition src_at (N : nat) : src := match N with O => mkSrc 0 0 | S m => mkSrc (S (m mod (Np - 1))) (m / (Np - 1)) end.
Definition row_at (n : nat) : option (list f64) := nth_error (iv (n / (Np - 1))) (n mod (Np - 1)).
Definition rinv (s : sst) : Prop := s_src s = src_at (length (s_inds s)) /\
  forall n i, nth_error (s_inds s) n = Some i -> exists u, row_at n = Some u /\ ivalues i = pm_limit p (from_unity p u).

Lemma divmod_S : forall N d, 1 <= d -> (S N / d, S N mod d) = (if N mod d + 1 =? d then (S (N / d), 0) else (N / d, S (N mod d))).
Proof.
  intros N d Hd. assert (E := Nat.div_mod N d ltac:(lia)). assert (L := Nat.mod_upper_bound N d ltac:(lia)).
  destruct (Nat.eqb_spec (N mod d + 1) d) as [H|H].
  - assert (Q := Nat.div_mod_unique d (S N / d) (S (N / d)) (S N mod d) 0 (Nat.mod_upper_bound (S N) d ltac:(lia)) ltac:(lia)).
    rewrite <- Nat.div_mod in Q by lia. destruct Q as [Q1 Q2]; [nia|]. congruence.
  - assert (Q := Nat.div_mod_unique d (S N / d) (N / d) (S N mod d) (S (N mod d)) (Nat.mod_upper_bound (S N) d ltac:(lia)) ltac:(lia)).
    rewrite <- Nat.div_mod in Q by lia. destruct Q as [Q1 Q2]; [nia|]. congruence.
Qed.

Lemma src_next : forall N, let x := src_at N in
  let y := if src_k x + 1 =? Np then mkSrc 0 (S (src_g x)) else x in
  y = mkSrc (N mod (Np - 1)) (N / (Np - 1)).
Proof.
  intros [|m]; cbn [src_at src_k src_g].
  - destruct (Nat.eqb_spec (0 + 1) Np); [lia|]. rewrite Nat.mod_0_l, Nat.div_0_l by lia. reflexivity.
  - assert (D := divmod_S m (Np - 1) ltac:(lia)).
    destruct (Nat.eqb_spec (m mod (Np - 1) + 1) (Np - 1)) as [E|E]; injection D as -> ->.
    + replace (S (m mod (Np - 1)) + 1 =? Np) with true; auto. symmetry. apply Nat.eqb_eq. lia.
    + replace (S (m mod (Np - 1)) + 1 =? Np) with false; auto. symmetry. apply Nat.eqb_neq. lia.
Qed.

Lemma rinv_step : forall cm s e s', cs = [] -> inv cm s -> rinv s -> step s e = Some s' -> rinv s'.
Proof.
  intros cm s e s' Hc I [R1 R2] H. unfold step, sstep in H.
  assert (Upd : forall n i l, nth_error (s_inds s) n = Some i -> ivalues l = ivalues i ->
    forall m j, nth_error (upd n l (s_inds s)) m = Some j -> exists u, row_at m = Some u /\ ivalues j = pm_limit p (from_unity p u)).
  { intros n i l E V m j E'. apply upd_get in E'. destruct E' as [[-> ->]|[N E']]; [|eauto]. rewrite V. eauto. }
  destruct e as [| | | |n r t rp| |n].
  - destruct (s_pc s) eqn:E; try discriminate. injection H as <-. unfold head.
    destruct (_ || _); [split; auto|].
    destruct (tries_free maxTries (s_src s) Hc ltac:(lia) (i_src _ _ I)) as (u & E1 & E2). rewrite R1 in E1, E2.
    cbv zeta in E1, E2. rewrite (src_next (length (s_inds s))) in E1, E2. cbn [src_k src_g] in E1, E2. rewrite R1, E2.
    assert (Hu : okraw p (from_unity p u)). { eapply from_unity_ok; eauto. eapply nth_error_In; eauto. }
    cbv zeta. cbn [s_inds s_run set_src]. rewrite limit_new by auto.
    assert (G : forall y, ivalues y = pm_limit p (from_unity p u) -> forall m j, nth_error (s_inds s ++ [y]) m = Some j ->
      exists u, row_at m = Some u /\ ivalues j = pm_limit p (from_unity p u)).
    { intros y Hy m j K. apply nth_snoc in K. destruct K as [K|[-> <-]]; [eauto|]. exists u. split; auto. }
    destruct blank; [|destruct (_ <? _)]; (split; cbn; [rewrite app_length; cbn [length]; rewrite Nat.add_1_r; reflexivity|apply G; reflexivity]).
  - destruct (s_pc s) eqn:E; try discriminate. destruct (_ <? _); [|discriminate]. injection H as <-. split; auto.
  - destruct (s_pc s) eqn:E; try discriminate. destruct (existsb _ _); [discriminate|]. injection H as <-. split; auto.
  - destruct (s_pc s) eqn:E; try discriminate. destruct (s_trk s); [|discriminate]. injection H as <-.
    unfold finish. destruct (is_run _); split; auto.
  - destruct (existsb _ _); [|discriminate]. injection H as <-. unfold eval_done.
    destruct (nth_error (s_inds s) n) as [i|] eqn:Ei; [|split; auto].
    set (i1 := snd (evaluate (fun _ => r) t (mkEvpop (s_run s) 0) i)).
    assert (V1 : ivalues i1 = ivalues i) by (unfold i1, evaluate; destruct r; reflexivity).
    assert (U2 : forall j, ivalues j = ivalues i -> upd n j (upd n i1 (s_inds s)) = upd n j (s_inds s)).
    { intros j _. clear. revert n. induction (s_inds s); destruct n; simpl; auto. now rewrite IHl. }
    destruct (negb _); [|destruct rp]; (split; cbn [s_src s_inds s_abort]; [now rewrite ?upd_length|]); rewrite ?U2; auto; eapply Upd; eauto.
  - injection H as <-. split; auto.
  - destruct (nth_error _ _) as [i|] eqn:Ei; [|discriminate]. destruct (existsb _ _); [discriminate|]. injection H as <-.
    split; cbn; [now rewrite upd_length|]. eapply Upd; eauto.
Qed.
Lemma rinv_exec : forall es cm s s', cs = [] -> inv cm s -> rinv s -> exec s es = Some s' -> rinv s'.
Proof.
  unfold exec. induction es as [|e es IH]; simpl; intros cm s s' Hc I R H.
  - injection H as <-. auto.
  - destruct (sstep p cs Np maxPar maxTries blank iv s e) as [s1|] eqn:E; [|discriminate].
    apply (IH (cm_of e cm) s1); auto. { apply (inv_step cm s); auto. } apply (rinv_step cm s e); auto.
Qed.
Lemma rinv_reach : forall run es s, cs = [] -> exec (setup_start run) es = Some s -> rinv s.
Proof.
  intros run es s Hc H. eapply rinv_exec; eauto. { apply inv_start. }
  unfold setup_start. destruct (is_run run); (split; [reflexivity|]); intros [|n] i; discriminate.
Qed.
End Proofs.

(** * C53: saving and loading a population *)
From Coq Require Import String List Bool Arith ZArith Lia Reals Lra.
From Verif Require Import Flt Py IndivModel ParamModel ParamProofs ParamProps HistModel HistProofs HistProps LoadModel.
Import ListNotations.
Local Open Scope nat_scope.
Local Open Scope list_scope.

(** usable bounds: finite, below 2^1023 in magnitude, not reversed *)
Definition ok_bounds (b : list (f64 * f64)) : Prop := Forall (fun x => okbound (fst x) /\ okbound (snd x) /\ fleb (fst x) (snd x) = true) b.
(** what two histories agree on: everything but the order in which two sets are
    kept and the lock *)
Definition same_history (h' h : hist) : Prop :=
  Nd h' = Nd h /\ nmax h' = nmax h /\ total h' = total h /\ X h' = X h /\ K h' = K h /\
  (forall r, In r (Kp h') <-> In r (Kp h)) /\ (forall r, In r (Kn h') <-> In r (Kn h)) /\ krd h' = krd h /\
  (forall r, In r (cK (cp h')) <-> In r (cK (cp h))) /\ (forall r, In r (cKn (cp h')) <-> In r (cKn (cp h))) /\ locked h' = false.

Lemma ok_bounds_pm : forall p b, ok_bounds b -> okpm (pm_setup p b).
Proof.
  intros p b H. split; [simpl; now rewrite !map_length|]. intros k lo hi A B. simpl in A, B. unfold ok_bounds in H. rewrite Forall_forall in H.
  rewrite nth_error_map in A, B. destruct (nth_error b k) as [x|] eqn:E; [|discriminate]. simpl in A, B. injection A as <-. injection B as <-. apply H. eapply nth_error_In; eauto.
Qed.
Lemma limit_all_ok : forall p Nd l, okpm p -> length (pm_mins p) = Nd -> (forall i, In i l -> length (ivalues i) = Nd /\ Forall (fun x => isnan x = false) (ivalues i)) ->
  exists l', limit_all p Nd l = Ok l' /\
    Forall2 (fun i j => ivalues j = pm_limit p (ivalues i) /\ inbounds p (ivalues j) /\ istored j = istored i /\ idt j = idt i) l l'.
Proof.
  intros p Nd l OK L. induction l as [|i l IH]; intros H; cbn [limit_all]; [exists []; auto|].
  destruct (H i (or_introl eq_refl)) as [Hl Hn]. unfold limit_bc. rewrite Hl, L, Nat.eqb_refl. cbn [bind].
  assert (I := pm_limit_in p (ivalues i) OK ltac:(congruence) Hn). unfold ind_update. rewrite (proj1 I), L, Nat.eqb_refl.
  destruct IH as (l' & -> & F); [intros; apply H; simpl; auto|]. cbn [bind]. eexists. split; [reflexivity|]. constructor; auto.
Qed.

(** loading what was saved: for every saved population (its history reached by
    any operations) and any functions given *)
Theorem C53_load : forall hash nd nm ops p func complaint, reach hash nd nm ops (p_hist p) -> (Z.of_nat (nmax (p_hist p)) <= 65536)%Z ->
  exists p', pop_load (pop_getstate p) func complaint None = Ok p' /\
    p_iList p' = p_iList p /\ p_Np p' = p_Np p /\ p_Nd p' = p_Nd p /\ p_popsize p' = p_popsize p /\
    p_target p' = p_target p /\ p_sqs p' = p_sqs p /\ p_pm p' = p_pm p /\ p_constr p' = p_constr p /\ same_history (p_hist p') (p_hist p) /\
    p_running p' <> Some false /\ (p_running p <> Some false -> p_running p' = p_running p) /\
    length (p_locks p') = length (p_iList p') /\ (forall b, In b (p_locks p') -> b = false) /\
    p_func p' = func /\ p_reporter p' = Some (mkRep complaint 0 None).
Proof.
  intros hash nd nm ops p func complaint R Hm. destruct (C36_pickle hash nd nm ops (p_hist p) R Hm) as (h' & E & S).
  unfold pop_load, pop_setstate, pop_getstate. cbn [s_hist]. rewrite E. cbn [bind]. eexists. split; [reflexivity|]. cbn.
  repeat (split; [reflexivity|]). split; [exact S|]. split; [destruct (p_running p) as [[|]|]; discriminate|].
  split; [destruct (p_running p) as [[|]|]; congruence|]. split; [apply map_length|]. split; [|auto].
  intros b I. apply in_map_iff in I as (x & <- & _). reflexivity.
Qed.
Print Assumptions C53_load.

(** with new bounds, one for each parameter: every individual is moved inside
    the bounds; everything else is as without bounds *)
Theorem C53_bounds : forall hash nd nm ops p func complaint b, reach hash nd nm ops (p_hist p) -> (Z.of_nat (nmax (p_hist p)) <= 65536)%Z ->
  b <> [] -> length b = p_Nd p -> ok_bounds b ->
  (forall i, In i (p_iList p) -> length (ivalues i) = p_Nd p /\ Forall (fun x => isnan x = false) (ivalues i)) ->
  exists p0 p', pop_load (pop_getstate p) func complaint None = Ok p0 /\ pop_load (pop_getstate p) func complaint (Some b) = Ok p' /\
    pm_names (p_pm p') = pm_names (p_pm p) /\ pm_mins (p_pm p') = map fst b /\ pm_maxs (p_pm p') = map snd b /\
    Forall2 (fun i j => inbounds (p_pm p') (ivalues j) /\ istored j = istored i /\ idt j = idt i /\
                        (inbounds (p_pm p') (ivalues i) -> Forall2 (fun x y => feqb y x = true) (ivalues i) (ivalues j))) (p_iList p) (p_iList p') /\
    p_Np p' = p_Np p /\ p_Nd p' = p_Nd p /\ p_constr p' = p_constr p /\ p_hist p' = p_hist p0 /\ p_running p' = p_running p0 /\ p_locks p' = p_locks p0 /\
    p_func p' = func /\ p_reporter p' = p_reporter p0.
Proof.
  intros hash nd nm ops p func complaint b R Hm NE L OK H. destruct (C36_pickle hash nd nm ops (p_hist p) R Hm) as (h' & E & S).
  destruct (limit_all_ok (pm_setup (p_pm p) b) (p_Nd p) (p_iList p) (ok_bounds_pm _ _ OK)) as (l' & EL & F); [simpl; now rewrite map_length|auto|].
  unfold pop_load, pop_setstate, pop_getstate. cbn [s_hist]. rewrite E. destruct b as [|b0 b]; [congruence|]. cbn [bind p_pm p_iList p_Nd s_pm s_iList s_Nd]. rewrite EL. cbn [bind].
  eexists. eexists. split; [reflexivity|]. split; [reflexivity|]. cbn [p_pm p_iList p_Np p_Nd p_constr p_hist p_running p_locks p_func p_reporter fst snd].
  split; [reflexivity|]. split; [reflexivity|]. split; [reflexivity|]. split; [|repeat split].
  clear EL. induction F as [|i j l l' (V & I & A & B) F IH]; constructor; [|apply IH; intros; apply H; simpl; auto]. split; auto. split; auto. split; auto. intros In0. rewrite V.
  destruct In0 as [Ln In0]. set (q := pm_setup (p_pm p) (b0 :: b)) in *. unfold pm_limit. assert (L2 : length (pm_maxs q) = length (pm_mins q)) by (simpl; now rewrite !map_length).
  revert Ln In0 L2. generalize (pm_mins q) (pm_maxs q) (ivalues i). clear. induction l as [|lo l IH]; intros [|hi m] [|x v] Ln In0 L2; try discriminate; cbn [map3]; constructor.
  - destruct (In0 0 x eq_refl) as (lo' & hi' & A & B & C & D). simpl in A, B. injection A as <-. injection B as <-. now apply limit1_inside.
  - apply IH; simpl in *; try lia. intros k y Y. exact (In0 (Datatypes.S k) y Y).
Qed.
Print Assumptions C53_bounds.

(** a concrete population: two individuals, stopped, a lock held *)
Definition exp_pm : pm := mkPM ["alpha"; "beta"]%string [fofZ (-5); fzero] [fofZ 5; fofZ 10].
Definition exp_i (a b sse : Z) : indiv := mkIndiv [fofZ a; fofZ b] (Some (fofZ sse)) None.
Definition exp_hist : hist := hexec (fun _ => 0%Z) (h_init 2 0) [].
Definition exp_pop : popn := mkPop (Some false) 2 2 1 fone fone [exp_i 1 2 3; exp_i 4 9 5] exp_pm [] exp_hist (Some 7) None 10 (Some 3%Z) [true; false] true.
Definition exp_b : list (f64 * f64) := [(fzero, fofZ 2); (fzero, fofZ 3)].
Lemma exp_b_ok : ok_bounds exp_b.
Proof. repeat constructor; try (apply okbound_dec; reflexivity); cbn [fst snd]; reflexivity || apply (okbound_dec fzero) || apply (okbound_dec (fofZ 2)) || apply (okbound_dec (fofZ 3)); reflexivity. Qed.
Example C53_ex : reach (fun _ => 0%Z) 2 0 [] (p_hist exp_pop) /\ (Z.of_nat (nmax (p_hist exp_pop)) <= 65536)%Z /\ length exp_b = p_Nd exp_pop /\ ok_bounds exp_b /\
  (forall i, In i (p_iList exp_pop) -> length (ivalues i) = p_Nd exp_pop /\ Forall (fun x => isnan x = false) (ivalues i)) /\
  match pop_load (pop_getstate exp_pop) (Some 8) None (Some exp_b) with
  | Ok p' => p_running p' = Some true /\ p_locks p' = [false; false] /\ p_func p' = Some 8 /\ p_counter p' = 0 /\ p_onAbort p' = false /\
      map (fun i => map ftrunc (ivalues i)) (p_iList p') = [[1; 2]; [0; 0]]%Z
  | Raise _ => False end.
Proof.
  split; [split; [auto|split; [constructor|reflexivity]]|]. split; [vm_compute; discriminate|]. split; [reflexivity|]. split; [exact exp_b_ok|].
  split; [|vm_compute; auto 10]. intros i [<-|[<-|[]]]; (split; [reflexivity|]); repeat constructor.
Qed.

(** the counter of evaluations, the replacement score, the callbacks and the best
    individual reported so far are lost, and the new population is not stopped
    when the user aborts, unlike one that was constructed *)
Theorem C53_lost_refuted : forall file func complaint b p', pop_load file func complaint b = Ok p' ->
  p_counter p' = 0 /\ p_score p' = None /\ p_onAbort p' = false /\
  exists r, p_reporter p' = Some r /\ r_callbacks r = 0 /\ r_best r = None /\ r_complaint r = complaint.
Proof.
  intros file func complaint b p'. unfold pop_load, pop_setstate. destruct (setstate (s_hist file)) as [h|]; cbn [bind]; [|discriminate]. cbn [p_pm p_iList p_Nd].
  destruct (match b with None | Some [] => Ok (s_pm file, s_iList file) | _ => _ end) as [[q l]|]; cbn [bind]; [|discriminate]. intros H. injection H as <-. repeat split. eexists. split; [reflexivity|]. auto.
Qed.
Print Assumptions C53_lost_refuted.
Lemma no_cycle : forall a b c, fltb a b = true -> feqb b c = true -> fleb c a = true -> False.
Proof. intros a b c A B C. apply fltb_spec in A as (_ & _ & A). apply feqb_spec in B as (_ & _ & B). apply fleb_spec in C as (_ & _ & C). lra. Qed.
(** an individual that is moved keeps the SSE of the values it had before *)
Theorem C53_stale_SSE_refuted : exists p b p', pop_load (pop_getstate p) None None (Some b) = Ok p' /\
  exists i j, nth_error (p_iList p) 1 = Some i /\ nth_error (p_iList p') 1 = Some j /\ istored j = istored i /\ vals_eq (ivalues i) (ivalues j) = false.
Proof.
  exists exp_pop, exp_b. destruct (C53_bounds (fun _ => 0%Z) 2 0 [] exp_pop None None exp_b) as (p0 & p' & _ & E & _ & _ & _ & F & _); try apply C53_ex; [discriminate|].
  exists p'. split; auto. inversion F as [|i1 j1 l1 l1' P1 F1 EA EB]; subst. inversion F1 as [|i2 j2 l2 l2' P2 F2 EA2 EB2]; subst. exists (exp_i 4 9 5), j2. split; [reflexivity|]. split; [reflexivity|].
  destruct P2 as (I & S & _). split; auto. destruct (vals_eq _ _) eqn:Q; auto. exfalso.
  destruct I as [L I]. destruct (ivalues j2) as [|x v]; [discriminate|]. destruct (I 0 x eq_refl) as (lo & hi & A & B & C & D).
  assert (BM : pm_maxs (p_pm p') = [fofZ 2; fofZ 3]). { destruct (C53_bounds (fun _ => 0%Z) 2 0 [] exp_pop None None exp_b) as (p0' & p'' & _ & E' & _ & _ & M & _); try apply C53_ex; [discriminate|]. assert (X : p' = p'') by congruence. rewrite X. exact M. }
  rewrite BM in B. change (Some (fofZ 2) = Some hi) in B. assert (HH : hi = fofZ 2) by congruence. subst hi. cbn [ivalues exp_i vals_eq] in Q. apply andb_true_iff in Q as [Q _]. exact (no_cycle (fofZ 2) (fofZ 4) x eq_refl Q D).
Qed.
Print Assumptions C53_stale_SSE_refuted.
(** an empty list of bounds is ignored, and a single bound is applied to every
    parameter without complaint *)
Theorem C53_empty_bounds : forall file func complaint, pop_load file func complaint (Some []) = pop_load file func complaint None.
Proof. reflexivity. Qed.
Print Assumptions C53_empty_bounds.
Theorem C53_single_bound_refuted : match pop_load (pop_getstate exp_pop) None None (Some [(fzero, fofZ 2)]) with
  | Ok p' => length (pm_mins (p_pm p')) = 1 /\ p_Nd p' = 2 /\ map (fun i => map ftrunc (ivalues i)) (p_iList p') = [[1; 2]; [0; 0]]%Z
  | Raise _ => False end.
Proof. vm_compute. auto. Qed.
Print Assumptions C53_single_bound_refuted.
(** any other wrong number of bounds raises, if there are individuals *)
Theorem C53_wrong_number : forall hash nd nm ops p func complaint b i l, reach hash nd nm ops (p_hist p) -> (Z.of_nat (nmax (p_hist p)) <= 65536)%Z ->
  p_iList p = i :: l -> length (ivalues i) = p_Nd p -> length b <> p_Nd p -> length b <> 1 -> b <> [] ->
  pop_load (pop_getstate p) func complaint (Some b) = Raise ValueError.
Proof.
  intros hash nd nm ops p func complaint b i l R Hm EI Li Lb L1 NE. destruct (C36_pickle hash nd nm ops (p_hist p) R Hm) as (h' & E & S).
  unfold pop_load, pop_setstate, pop_getstate. cbn [s_hist]. rewrite E. destruct b as [|b0 [|b1 b]]; [congruence|simpl in L1; lia|]. cbn [bind p_pm p_iList p_Nd s_pm s_iList s_Nd]. rewrite EI. cbn [limit_all].
  assert (X : limit_bc (pm_setup (p_pm p) (b0 :: b1 :: b)) (ivalues i) = Raise ValueError \/
    exists x v, ivalues i = [x] /\ limit_bc (pm_setup (p_pm p) (b0 :: b1 :: b)) (ivalues i) = Ok v /\ length v <> p_Nd p).
  { unfold limit_bc. cbn [pm_setup pm_mins pm_maxs map]. rewrite Li. destruct (Nat.eqb_spec (length (fst b0 :: fst b1 :: map fst b)) (p_Nd p)) as [Q|Q]; [simpl in Q; rewrite map_length in Q; simpl in Lb; lia|].
    destruct (ivalues i) as [|x [|y v]]; auto. right. exists x. eexists. split; auto. split; [reflexivity|]. rewrite map2_length by (simpl; now rewrite !map_length). exact Q. }
  destruct X as [->|(x & v & EX & -> & Lv)]; cbn [bind]; auto. unfold ind_update. apply Nat.eqb_neq in Lv. rewrite Lv. reflexivity.
Qed.
Print Assumptions C53_wrong_number.

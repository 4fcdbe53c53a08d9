(** * Property C104: a run records its evaluations in the history *)
From Coq Require Import List Bool Arith ZArith Lia Permutation.
From Verif Require Import Flt Py HistModel HistProofs HistProps PopHModel PopHProps ChalModel RecModel.
Import ListNotations.
Local Open Scope nat_scope.
#[local] Arguments hstep : simpl never.

Section C104.
Variable hash : ind -> Z.
Variable mk : nat -> ind -> ind -> ind -> ind -> mkres ind.
Variable ev : nat -> ind -> ind -> option ind.
Variable better : ind -> ind -> bool.
Variable xSSE : bool.
Variable ho : nat -> orc.
Notation rstep := (rstep hash mk ev better xSSE ho).
Notation rexec := (rexec hash mk ev better xSSE ho).

(** ** What a sequence of events says *)
(** the evaluation that ends with an event, if the run goes on: slot, target, challenger with SSE *)
Definition evaluation (s : rc) (e : rev_) : list (nat * ind * ind) :=
  match e with
  | RC (EEvalDone c) =>
    match nth_error (cs (rs s)) c with
    | Some (mkChal q (PEval it ch)) => match ev c it ch with Some r => if run (rs s) then [(kt q, it, r)] else [] | None => [] end
    | _ => []
    end
  | _ => []
  end.
(** all of them in order *)
Fixpoint evaluations (s : rc) (es : list rev_) : list (nat * ind * ind) :=
  match es with
  | [] => []
  | e :: es => match rstep s e with Some t => evaluation s e ++ evaluations t es | None => [] end
  end.
(** what is done with one: the winner replaces the target, the loser is recorded as never in the
    population unless evaluations are cut short *)
Definition consequence (n : nat) (x : nat * ind * ind) : list pop_op :=
  let '(k, it, r) := x in
  if better r it then [PSet k r (ho n)] else if xSSE then [] else [PLose r (ho n)].
(** the consequences one after another, [n] numbering them *)
Fixpoint consequences (n : nat) (l : list (nat * ind * ind)) : list pop_op :=
  match l with
  | [] => []
  | x :: l => consequence n x ++ consequences (n + length (consequence n x)) l
  end.

(** ** Lemmas *)
Lemma consequences_app l : forall n m, consequences n (l ++ m) = consequences n l ++ consequences (n + length (consequences n l)) m.
Proof.
  induction l as [|x l IH]; intros n m; cbn [consequences app length]; [now rewrite Nat.add_0_r|].
  rewrite IH, <- app_assoc, app_length. do 2 f_equal. f_equal. lia.
Qed.
Lemma evaluations_snoc es : forall s t e u, rexec s es = Some t -> rstep t e = Some u -> evaluations s (es ++ [e]) = evaluations s es ++ evaluation t e.
Proof.
  induction es as [|a es IH]; intros s t e u E S; cbn [RecModel.rexec app evaluations] in *.
  - injection E as ->. rewrite S. now rewrite app_nil_r.
  - destruct (rstep s a) as [x|] eqn:A; [|discriminate]. rewrite <- app_assoc. f_equal. eapply IH; eauto.
Qed.
Lemma rexec_snoc es : forall s t e, rexec s (es ++ [e]) = Some t -> exists u, rexec s es = Some u /\ rstep u e = Some t.
Proof.
  induction es as [|a es IH]; intros s t e E; cbn [RecModel.rexec app] in *.
  - destruct (rstep s e) as [x|] eqn:A; [|discriminate]. injection E as ->. eauto.
  - destruct (rstep s a) as [x|] eqn:A; [|discriminate]. eapply IH; eauto.
Qed.

(** the operations on the history that take its lock *)
Definition hops (l : list ind) (op : pop_op) : list hop :=
  match op with
  | PSet k i o => (match nth_error l k with Some prev => [ONotIn prev] | None => [] end) ++ (if isfin (iSSE i) then [OAdd (iSSE i) i false o] else [])
  | PLose i o => if isfin (iSSE i) then [OAdd (iSSE i) i true o] else []
  | _ => []
  end.
Lemma hexec_app a : forall b h, hexec hash h (a ++ b) = hexec hash (hexec hash h a) b.
Proof. induction a as [|x a IH]; intros b h; [reflexivity|]. cbn [app hexec]. apply IH. Qed.
Lemma hexec_nonfin h i never o : isfin (iSSE i) = false -> hexec hash h [OAdd (iSSE i) i never o] = h.
Proof. intros F. unfold hexec, hstep, h_add. rewrite F. reflexivity. Qed.
Lemma pop_step_hops l h op : match op with PSet k _ _ => k < length l | PLose _ _ => True | _ => False end ->
  pop_step hash (l, h) op = (match op with PSet k i _ => upd k i l | _ => l end, hexec hash h (hops l op), None).
Proof.
  destruct op as [i o|k i o|i o|k|]; try tauto; intros L; cbn [pop_step hops].
  - destruct (Nat.ltb_spec k (length l)); [|lia]. destruct (nth_error l k) as [prev|] eqn:E; [|apply nth_error_None in E; lia].
    rewrite hexec_app. destruct (isfin (iSSE i)) eqn:F; [reflexivity|]. rewrite (hexec_nonfin _ i false o F). reflexivity.
  - destruct (isfin (iSSE i)) eqn:F; [reflexivity|]. rewrite (hexec_nonfin _ i true o F). reflexivity.
Qed.
Lemma pop_exec_snoc ops : forall s op, pop_exec hash s (ops ++ [op]) = fst (pop_step hash (pop_exec hash s ops) op).
Proof. induction ops as [|x ops IH]; intros s op; [reflexivity|]. cbn [pop_exec app]. apply IH. Qed.

(** the list, and the operations on the history, of a log *)
Definition on_list (l : list ind) (op : pop_op) : list ind := match op with PSet k i _ => upd k i l | _ => l end.
Fixpoint lists (l : list ind) (ops : list pop_op) : list ind := match ops with [] => l | op :: ops => lists (on_list l op) ops end.
Fixpoint allhops (l : list ind) (ops : list pop_op) : list hop := match ops with [] => [] | op :: ops => hops l op ++ allhops (on_list l op) ops end.
Definition valid (n : nat) (op : pop_op) : Prop := match op with PSet k _ _ => k < n | PLose _ _ => True | _ => False end.
Lemma upd_len {A} k (x : A) l : length (upd k x l) = length l.
Proof. revert k. induction l as [|y l IH]; intros [|k]; cbn; auto. Qed.
Lemma on_list_len l op : length (on_list l op) = length l.
Proof. destruct op; cbn; auto using upd_len. Qed.
Lemma lists_len ops : forall l, length (lists l ops) = length l.
Proof. induction ops as [|op ops IH]; intros l; cbn; [reflexivity|]. rewrite IH. apply on_list_len. Qed.
Lemma lists_snoc ops : forall l op, lists l (ops ++ [op]) = on_list (lists l ops) op.
Proof. induction ops as [|x ops IH]; intros l op; cbn; auto. Qed.
Lemma allhops_snoc ops : forall l op, allhops l (ops ++ [op]) = allhops l ops ++ hops (lists l ops) op.
Proof. induction ops as [|x ops IH]; intros l op; cbn [allhops lists app]; [now rewrite app_nil_r|]. now rewrite IH, app_assoc. Qed.
Lemma pop_exec_lists ops : forall l h, Forall (valid (length l)) ops -> pop_exec hash (l, h) ops = (lists l ops, hexec hash h (allhops l ops)).
Proof.
  induction ops as [|op ops IH]; intros l h V; [reflexivity|]. inversion V as [|? ? V1 V2]; subst. cbn [pop_exec lists allhops].
  rewrite (pop_step_hops l h op V1). cbn [fst]. fold (on_list l op). rewrite IH; [|now rewrite on_list_len]. now rewrite hexec_app.
Qed.

(** the invariant: the list and the operations requested are those of the log; the history is
    what the operations that have ended make of it *)
Record rinv (p0 : list ind) (h0 : hist) (s : rc) : Prop := {
  v_valid : Forall (valid (length p0)) (rlog s);
  v_pop : pop (rs s) = lists p0 (rlog s);
  v_hist : exists done rest, done ++ rest = allhops p0 (rlog s) /\ rh s = hexec hash h0 done /\
      (if locked (rh s) then exists o, map snd (rq s) = o :: rest else map snd (rq s) = rest) }.

Lemma step_pop s e t : step mk ev better (fun _ => false) xSSE s e = Some t -> (forall c, e <> EEvalDone c) -> pop t = pop s.
Proof.
  intros S N. assert (R1 : forall k (u : st ind), pop (release1 k u) = pop u) by (intros k u; unfold release1; destruct (nth_error (locks u) k) as [[|]|]; reflexivity).
  destruct e as [q|c|c|c|c|c|c| | |n]; cbn [step] in S.
  - destruct (ChalModel.run s && okquad (length (pop s)) q); [|discriminate]. destruct (prun s); injection S as <-; reflexivity.
  - destruct (nth_error (cs s) c) as [[q [[|]| | | | | | |]]|]; try discriminate. destruct (run s).
    + destruct (nth_error (pop s) (kt q)), (nth_error (pop s) (kb q)), (nth_error (pop s) (k0 q)), (nth_error (pop s) (k1 q)); injection S as <-; reflexivity.
    + injection S as <-. reflexivity.
  - destruct (nth_error (cs s) c) as [[q [|[|k l]|it ib i0 i1 [|k l]| | | | |]]|]; try discriminate; injection S as <-; rewrite ?R1; reflexivity.
  - destruct (nth_error (cs s) c) as [[q [| |it ib i0 i1 [|]| | | | |]]|]; try discriminate. destruct (mk c it ib i0 i1); injection S as <-; reflexivity.
  - exfalso. exact (N c eq_refl).
  - destruct (nth_error (cs s) c) as [[q [| | | | | | |]]|]; try discriminate. injection S as <-; reflexivity.
  - destruct (nth_error (cs s) c) as [[q [| | | | | | |]]|]; try discriminate. injection S as <-. rewrite R1. reflexivity.
  - injection S as <-. reflexivity.
  - injection S as <-. reflexivity.
  - destruct (nth_error (abq s) n); [|discriminate]. injection S as <-. rewrite R1. reflexivity.
Qed.
Lemma step_pop_hist b s c t : step mk ev better b xSSE s (EHistDone c) = Some t -> pop t = pop s.
Proof. cbn [step]. destruct (nth_error (cs s) c) as [[q [| | | | | | |]]|]; try discriminate. intros E. injection E as <-. reflexivity. Qed.

(** adding requested operations at the end of the queue *)
Lemma rinv_more p0 h0 s t op : rinv p0 h0 s -> valid (length (pop (rs s))) op ->
  rlog t = rlog s ++ [op] -> rh t = rh s -> map snd (rq t) = map snd (rq s) ++ hops (pop (rs s)) op ->
  pop (rs t) = on_list (pop (rs s)) op -> rinv p0 h0 t.
Proof.
  intros [V A (done & rest & B1 & B2 & B3)] L E1 E2 E3 E4. rewrite A, lists_len in L. constructor.
  - rewrite E1. apply Forall_app. auto.
  - rewrite E1, E4, lists_snoc. now rewrite A.
  - exists done, (rest ++ hops (pop (rs s)) op). rewrite E1, allhops_snoc, <- A, <- B1, <- app_assoc. split; [reflexivity|]. rewrite E2. split; [exact B2|].
    rewrite E3. destruct (locked (rh s)).
    + destruct B3 as [o B3]. exists o. now rewrite B3.
    + now rewrite B3.
Qed.
Lemma rinv_same p0 h0 s t : rinv p0 h0 s -> rlog t = rlog s -> rh t = rh s -> rq t = rq s -> pop (rs t) = pop (rs s) -> rinv p0 h0 t.
Proof. intros [V A B] E1 E2 E3 E4. constructor; rewrite ?E1, ?E2, ?E3, ?E4; assumption. Qed.

Lemma hstep_ret h op h' v : locked h = false -> hstep hash h op = (h', Ret v) -> locked h' = false.
Proof.
  intros L E. unfold hstep in E. destruct op as [sse i never o|i|kr| |].
  - unfold h_add in E. destruct (isfin sse); cbn [negb] in E; [|injection E as <- <-; exact L]. rewrite L in E.
    assert (A : forall g, locked g = false -> forall N g' v', add_at hash g sse N i never = (g', Ret v') -> locked g' = false).
    { intros g Lg N g' v' E'. unfold add_at in E'. destruct (if N =? 0 then Ok (0, 0) else kkr g sse N) as [[k r]|e]; [|discriminate].
      unfold write_record in E'. destruct (negb (r <? nmax g)); [discriminate|]. destruct (row_of (Nd g) i) as [row|e]; [|discriminate]. destruct never.
      - destruct (set_row (cp g) r row true); [|discriminate]. injection E' as <- <-. exact Lg.
      - destruct (pack_overflow i); [discriminate|]. injection E' as <- <-. exact Lg. }
    destruct (length (K h) <? nmax h); [eapply A; eauto|]. destruct (cpf_call Np_max (cp h) o) as [[kr|e]|]; try discriminate.
    unfold purge in E. destruct (mem kr (K h)); [|discriminate]. eapply A; [|exact E]. exact L.
  - unfold not_in_pop in E. rewrite L in E. destruct (pack_overflow i); [discriminate|]. destruct (zget (krd h) (hash i)); [|injection E as <- <-; exact L].
    unfold not_in_row in E. destruct (if n <? nmax h then _ else _); [injection E as <- <-; exact L|discriminate].
  - rewrite L in E. unfold not_in_row in E. destruct (if kr <? nmax h then _ else _); [injection E as <- <-; exact L|discriminate].
  - unfold purge_pop in E. rewrite L in E. destruct (purge_all h (Kp h)) as [g|e] eqn:PA; [|discriminate]. injection E as <- <-. cbn [locked].
    revert PA. generalize (Kp h). revert L. clear. intros L l. revert h L. induction l as [|k l IH]; intros h L PA; cbn in PA; [injection PA as <-; exact L|].
    unfold purge in PA. destruct (mem k (K h)); [|discriminate]. cbn [bind] in PA. eapply IH; [|exact PA]. exact L.
  - unfold h_clear in E. rewrite L in E. injection E as <- <-. reflexivity.
Qed.
Lemma hstep_blocked h op h' : locked h = false -> hstep hash h op = (h', Blocked) -> locked h' = true.
Proof.
  intros L E. unfold hstep in E. destruct op as [sse i never o|i|kr| |].
  - unfold h_add in E. destruct (isfin sse); cbn [negb] in E; [|discriminate]. rewrite L in E.
    assert (A : forall g N g', add_at hash g sse N i never = (g', Blocked) -> False).
    { intros g N g' E'. unfold add_at in E'. destruct (if N =? 0 then Ok (0, 0) else kkr g sse N) as [[k r]|e]; [|discriminate].
      destruct (write_record hash g i never k r) as [? [|]]; discriminate. }
    destruct (length (K h) <? nmax h); [exfalso; eapply A; eauto|]. destruct (cpf_call Np_max (cp h) o) as [[kr|e]|]; try discriminate.
    + destruct (purge h kr); [exfalso; eapply A; eauto|discriminate].
    + injection E as <-. reflexivity.
  - unfold not_in_pop in E. rewrite L in E. destruct (pack_overflow i); [discriminate|]. destruct (zget (krd h) (hash i)); [|discriminate].
    unfold not_in_row in E. destruct (if n <? nmax h then _ else _); discriminate.
  - rewrite L in E. unfold not_in_row in E. destruct (if kr <? nmax h then _ else _); discriminate.
  - unfold purge_pop in E. rewrite L in E. destruct (purge_all h (Kp h)); discriminate.
  - unfold h_clear in E. rewrite L in E. discriminate.
Qed.

(** the slots of the challenges exist *)
Definition slots_ok (s : st ind) : Prop := Forall (fun x => kt (cq x) < length (pop s)) (cs s).
Lemma slots_step b s e t : step mk ev better b xSSE s e = Some t -> slots_ok s -> slots_ok t /\ length (pop t) = length (pop s).
Proof.
  intros S O. unfold slots_ok in *.
  assert (U : forall A (P : A -> Prop) l k x, Forall P l -> (forall y, nth_error l k = Some y -> P x) -> Forall P (upd k x l)).
  { intros A P l. induction l as [|y l IH]; intros [|k] x F H; cbn; auto; inversion F; subst; constructor; auto; now apply (H y). }
  assert (SP : forall c p (u : st ind) n, Forall (fun x => kt (cq x) < n) (cs u) -> Forall (fun x => kt (cq x) < n) (set_pc c p (cs u))).
  { intros c p u n F. unfold set_pc. destruct (nth_error (cs u) c) as [x|] eqn:E; [|exact F]. apply U; [exact F|]. intros y Y. cbn [cq].
    assert (x = y) by congruence. subst. rewrite Forall_forall in F. apply F. eapply nth_error_In; eauto. }
  assert (R1 : forall k (u : st ind) n, Forall (fun x => kt (cq x) < n) (cs u) -> Forall (fun x => kt (cq x) < n) (cs (release1 k u)) /\ pop (release1 k u) = pop u).
  { intros k u n F. unfold release1. destruct (nth_error (locks u) k) as [[|a [|h r]]|]; auto. cbn [cs pop]. split; [|reflexivity]. destruct (nth_error (cs u) h) as [x|] eqn:E; [|exact F].
    apply U; [exact F|]. intros y Y. rewrite Forall_forall in F. assert (Hx := F x (nth_error_In _ _ E)). unfold grant. destruct (cpc x); exact Hx. }
  destruct e as [q|c|c|c|c|c|c| | |n]; cbn [step] in S.
  - destruct (ChalModel.run s && okquad (length (pop s)) q) eqn:G; [|discriminate]. apply andb_true_iff in G. destruct G as [_ G]. unfold okquad in G.
    assert (K : kt q < length (pop s)) by (repeat (apply andb_true_iff in G; destruct G as [G _]); now apply Nat.ltb_lt).
    destruct (prun s); injection S as <-; cbn [cs pop with_cs]; (split; [|reflexivity]); apply Forall_app; (split; [exact O|]); constructor; auto.
  - destruct (nth_error (cs s) c) as [[q [[|]| | | | | | |]]|]; try discriminate. destruct (run s).
    + destruct (nth_error (pop s) (kt q)), (nth_error (pop s) (kb q)), (nth_error (pop s) (k0 q)), (nth_error (pop s) (k1 q)); injection S as <-; cbn [cs pop goto with_cs]; (split; [|reflexivity]); now apply SP.
    + injection S as <-. cbn [cs pop goto with_cs]. split; [|reflexivity]. now apply SP.
  - destruct (nth_error (cs s) c) as [[q [|[|k l]|it ib i0 i1 [|k l]| | | | |]]|]; try discriminate; injection S as <-.
    + cbn [cs pop goto with_cs]. split; [now apply SP|reflexivity].
    + destruct (R1 k (goto s c (PRelAll l)) (length (pop s))) as [A B]; [cbn [cs goto with_cs]; now apply SP|]. rewrite B. split; [exact A|reflexivity].
    + destruct (R1 k (goto s c (PRel it ib i0 i1 l)) (length (pop s))) as [A B]; [cbn [cs goto with_cs]; now apply SP|]. rewrite B. split; [exact A|reflexivity].
  - destruct (nth_error (cs s) c) as [[q [| |it ib i0 i1 [|]| | | | |]]|]; try discriminate. destruct (mk c it ib i0 i1); injection S as <-; cbn [cs pop goto with_cs]; (split; [|reflexivity]); now apply SP.
  - destruct (nth_error (cs s) c) as [[q [| | |it ch| | | |]]|]; try discriminate. destruct (ev c it ch) as [r|].
    + destruct (run s); [destruct (better r it)|]; injection S as <-; cbn [cs pop goto with_cs]; rewrite ?upd_len; (split; [|reflexivity]); now apply SP.
    + injection S as <-. cbn [cs pop goto with_cs]. split; [now apply SP|reflexivity].
  - destruct (nth_error (cs s) c) as [[q [| | | | | | |]]|]; try discriminate. injection S as <-. cbn [cs pop goto with_cs]. split; [now apply SP|reflexivity].
  - destruct (nth_error (cs s) c) as [[q [| | | | | | |]]|]; try discriminate. injection S as <-.
    destruct (R1 (kt q) (goto s c PDone) (length (pop s))) as [A B]; [cbn [cs goto with_cs]; now apply SP|]. rewrite B. split; [exact A|reflexivity].
  - injection S as <-. auto.
  - injection S as <-. auto.
  - destruct (nth_error (abq s) n); [|discriminate]. injection S as <-.
    match goal with |- context [release1 n0 ?u] => destruct (R1 n0 u (length (pop s)) O) as [A B] end. rewrite B. split; [exact A|reflexivity].
Qed.
Lemma rslots s e t : rstep s e = Some t -> slots_ok (rs s) -> slots_ok (rs t).
Proof.
  intros S O. destruct e as [e|]; cbn [RecModel.rstep] in S.
  - destruct e as [q|c|c|c|c|c|c| | |n];
      try (destruct (step _ _ _ _ _ (rs s) _) as [u|] eqn:E; [|discriminate]; injection S as <-; exact (proj1 (slots_step _ _ _ _ E O))).
    + destruct (step _ _ _ _ _ (rs s) _) as [u|] eqn:E; [|discriminate]. destruct (slots_step _ _ _ _ E O) as [O' _].
      destruct (nth_error (cs (rs s)) c) as [[q [| | |it ch| | | |]]|]; try discriminate. destruct (ev c it ch) as [r|]; [|injection S as <-; exact O'].
      destruct (run (rs s)); [|injection S as <-; exact O']. destruct (better r it).
      * injection S as <-. cbn [note rs]. unfold req_add. destruct (isfin (iSSE r)); cbn [rs]; destruct (nth_error (pop (rs s)) (kt q)); exact O'.
      * destruct xSSE; injection S as <-; [exact O'|]. cbn [note rs]. unfold req_add. destruct (isfin (iSSE r)); exact O'.
    + destruct (find _ (rdone s)) as [[a b]|]; [|discriminate]. destruct (step _ _ _ _ _ (rs s) _) as [u|] eqn:E; [|discriminate]. injection S as <-. exact (proj1 (slots_step _ _ _ _ E O)).
  - destruct (rq s) as [|[c op] q]; [discriminate|]. destruct (locked (rh s)); [discriminate|]. destruct (hstep hash (rh s) op) as [h [v|x|]]; injection S as <-; exact O.
Qed.

Lemma rinv_step p0 h0 s e t : slots_ok (rs s) -> rinv p0 h0 s -> rstep s e = Some t -> rinv p0 h0 t.
Proof.
  intros O I S. destruct e as [e|]; cbn [RecModel.rstep] in S.
  - assert (G : forall u, step mk ev better (fun _ => false) xSSE (rs s) e = Some u -> (forall c, e <> EEvalDone c) -> rinv p0 h0 (mkR u (rh s) (rq s) (rdone s) (rlog s))).
    { intros u E N. eapply rinv_same; [exact I|reflexivity..|]. cbn [rs]. eapply step_pop; eauto. }
    destruct e as [q|c|c|c|c|c|c| | |n];
      try (destruct (step _ _ _ _ _ (rs s) _) as [u|] eqn:E; [|discriminate]; injection S as <-; apply G; [reflexivity|discriminate]).
    + clear G. cbn [step] in S. destruct (nth_error (cs (rs s)) c) as [[q [| | |it ch| | | |]]|] eqn:N; try discriminate.
      assert (KT : kt q < length (pop (rs s))). { unfold slots_ok in O. rewrite Forall_forall in O. apply (O _ (nth_error_In _ _ N)). }
      destruct (ev c it ch) as [r|].
      2: { injection S as <-. eapply rinv_same; [exact I|reflexivity..]. }
      destruct (run (rs s)); [|injection S as <-; eapply rinv_same; [exact I|reflexivity..]].
      destruct (better r it).
      * injection S as <-. set (n := length (rlog s)). destruct (nth_error (pop (rs s)) (kt q)) as [prev|] eqn:NP; [|apply nth_error_None in NP; lia].
        eapply (rinv_more p0 h0 s _ (PSet (kt q) r (ho n))); [exact I|exact KT|..]; unfold note, req_add; cbn [rlog rh rq rs]; fold n; destruct (isfin (iSSE r)) eqn:F; cbn [rlog rh rq rs pop goto with_cs]; auto.
        -- rewrite !map_app. cbn [map snd hops]. rewrite NP, F, <- app_assoc. reflexivity.
        -- rewrite map_app. cbn [map snd hops]. rewrite NP, F. reflexivity.
      * destruct xSSE; injection S as <-; [eapply rinv_same; [exact I|reflexivity..]|]. set (n := length (rlog s)).
        eapply (rinv_more p0 h0 s _ (PLose r (ho n))); [exact I|exact Logic.I|..]; unfold note, req_add; cbn [rlog rh rq rs]; fold n; destruct (isfin (iSSE r)) eqn:F; cbn [rlog rh rq rs pop goto with_cs]; auto.
        -- rewrite map_app. cbn [map snd hops]. now rewrite F.
        -- cbn [hops]. rewrite F. now rewrite app_nil_r.
    + destruct (find _ (rdone s)) as [[a b]|]; [|discriminate]. destruct (step _ _ _ _ _ (rs s) _) as [u|] eqn:E; [|discriminate]. injection S as <-.
      eapply rinv_same; [exact I|reflexivity..|]. cbn [rs]. eapply step_pop_hist; eauto.
  - destruct (rq s) as [|[c op] q] eqn:Q; [discriminate|]. destruct (locked (rh s)) eqn:L; [discriminate|].
    destruct I as [V A (done & rest & B1 & B2 & B3)]. rewrite L, Q in B3. cbn [map snd] in B3. destruct rest as [|o rest]; [discriminate|]. injection B3 as <- B3.
    assert (NH : fst (hstep hash (rh s) op) = hexec hash h0 (done ++ [op])) by (rewrite hexec_app, <- B2; reflexivity).
    assert (RE : done ++ op :: rest = (done ++ [op]) ++ rest) by (rewrite <- app_assoc; reflexivity). rewrite RE in B1.
    destruct (hstep hash (rh s) op) as [h out] eqn:HS. cbn [fst] in NH. destruct out as [v|x|]; injection S as <-; (constructor; cbn [rs rlog]; [exact V|exact A|]); exists (done ++ [op]), rest; cbn [rh rq]; (split; [exact B1|]); (split; [exact NH|]).
    + rewrite (hstep_ret _ _ _ _ L HS). exact B3.
    + destruct (locked h) eqn:LH; [|exact B3]. exists op. cbn [map snd]. now rewrite B3.
    + rewrite (hstep_blocked _ _ _ L HS). exists op. cbn [map snd]. now rewrite B3.
Qed.
Lemma rinv_run p0 h0 es : locked h0 = false -> forall t, rexec (rinit p0 h0) es = Some t -> slots_ok (rs t) /\ rinv p0 h0 t.
Proof.
  intros L. induction es as [|e es IH] using rev_ind; intros t E.
  - injection E as <-. split; [constructor|]. constructor; [constructor|reflexivity|]. exists [], []. cbn. rewrite L. auto.
  - destruct (rexec_snoc _ _ _ _ E) as (u & E1 & E2). destruct (IH u E1) as [O I]. split; [eapply rslots; eauto|eapply rinv_step; eauto].
Qed.

(** ** C104 *)
(** What a run does to population and history is the consequence of the evaluations that ended
    while it was running, in that order: whoever was better is the new member, whoever was not is
    recorded as never in the population unless evaluations are cut short *)
Theorem C104_consequences : forall p0 h0 es s, rexec (rinit p0 h0) es = Some s ->
  rlog s = consequences 0 (evaluations (rinit p0 h0) es).
Proof.
  intros p0 h0 es. induction es as [|e es IH] using rev_ind; intros t E; [injection E as <-; reflexivity|].
  destruct (rexec_snoc _ _ _ _ E) as (s & E1 & E2). rewrite (evaluations_snoc _ _ _ _ _ E1 E2), consequences_app, <- (IH s E1). cbn [Nat.add].
  assert (NIL : forall l : list pop_op, l = l ++ consequences (length l) []) by (intros; now rewrite app_nil_r).
  destruct e as [e|]; cbn [RecModel.rstep evaluation] in *.
  - destruct e as [q|c|c|c|c|c|c| | |n];
      try (destruct (step _ _ _ _ _ (rs s) _) as [u|]; [|discriminate]; injection E2 as <-; apply NIL).
    + destruct (step _ _ _ _ _ (rs s) _) as [u|]; [|discriminate]. destruct (nth_error (cs (rs s)) c) as [[q [| | |it ch| | | |]]|]; try discriminate.
      destruct (ev c it ch) as [r|]; [|injection E2 as <-; apply NIL]. destruct (run (rs s)); [|injection E2 as <-; apply NIL].
      cbn [consequences consequence]. destruct (better r it).
      * injection E2 as <-. cbn [note rlog]. unfold req_add. destruct (isfin (iSSE r)); cbn [rlog]; destruct (nth_error (pop (rs s)) (kt q)); reflexivity.
      * destruct xSSE; injection E2 as <-; [apply NIL|]. cbn [note rlog]. unfold req_add. destruct (isfin (iSSE r)); reflexivity.
    + destruct (find _ (rdone s)) as [[a b]|]; [|discriminate]. destruct (step _ _ _ _ _ (rs s) _) as [u|]; [|discriminate]. injection E2 as <-. apply NIL.
  - destruct (rq s) as [|[c op] q]; [discriminate|]. destruct (locked (rh s)); [discriminate|]. destruct (hstep hash (rh s) op) as [h [v|x|]]; injection E2 as <-; apply NIL.
Qed.
(** ... and once the updates of the history have all been made, population and history are what
    these consequences, one after another, make of the first population and its history *)
Theorem C104_sequential : forall p0 h0 es s, locked h0 = false -> rexec (rinit p0 h0) es = Some s ->
  pop (rs s) = fst (pop_exec hash (p0, h0) (consequences 0 (evaluations (rinit p0 h0) es))) /\
  (rq s = [] -> locked (rh s) = false /\ rh s = snd (pop_exec hash (p0, h0) (consequences 0 (evaluations (rinit p0 h0) es)))).
Proof.
  intros p0 h0 es s L E. rewrite <- (C104_consequences _ _ _ _ E). destruct (rinv_run p0 h0 es L s E) as [_ [V A (done & rest & B1 & B2 & B3)]].
  rewrite (pop_exec_lists _ _ _ V). cbn [fst snd].
  split; [exact A|]. intros Q. rewrite Q in B3. cbn [map] in B3. destruct (locked (rh s)); [destruct B3; discriminate|]. subst rest. rewrite app_nil_r in B1. split; [reflexivity|congruence].
Qed.

(** *** the members *)
(** what the run brings in has an SSE within the range of single precision, or none *)
Definition ok_evals (nd : nat) (l : list (nat * ind * ind)) : Prop := Forall (fun x => ok_ind nd (snd x)) l.
(** at any time the members have pairwise different hashes *)
Definition distinct (s0 : rc) (es : list rev_) : Prop :=
  forall es1 es2 u, es = es1 ++ es2 -> rexec s0 es1 = Some u -> NoDup (map hash (pop (rs u))).
Lemma rlog_snoc p0 h0 es e s t : rexec (rinit p0 h0) es = Some s -> rstep s e = Some t ->
  rlog t = rlog s \/ exists op r, rlog t = rlog s ++ [op] /\ In r (map snd (evaluation s e)) /\ exists o, (exists k, op = PSet k r o) \/ op = PLose r o.
Proof.
  intros E S. assert (E' : rexec (rinit p0 h0) (es ++ [e]) = Some t).
  { clear - E S. revert E. generalize (rinit p0 h0) as u. induction es as [|a es IH]; intros u E; cbn [app RecModel.rexec] in *; [injection E as ->; now rewrite S|]. destruct (rstep u a); [auto|discriminate]. }
  rewrite (C104_consequences _ _ _ _ E'), (evaluations_snoc _ _ _ _ _ E S), consequences_app, <- (C104_consequences _ _ _ _ E). cbn [Nat.add].
  assert (K : evaluation s e = [] \/ exists x, evaluation s e = [x]).
  { destruct e as [[q|c|c|c|c|c|c| | |n]|]; cbn [evaluation]; auto. destruct (nth_error (cs (rs s)) c) as [[q [| | |it ch| | | |]]|]; auto.
    destruct (ev c it ch); [destruct (run (rs s)); eauto|auto]. }
  destruct K as [->|[[[k it] r] ->]]; cbn [consequences consequence map snd]; rewrite ?app_nil_r; [now left|].
  destruct (better r it); [right; exists (PSet k r (ho (length (rlog s)))), r; split; [reflexivity|]; split; [now left|]; eauto|].
  destruct xSSE; [left; apply app_nil_r|]. right. exists (PLose r (ho (length (rlog s)))), r. split; [reflexivity|]. split; [now left|]. eauto.
Qed.
Lemma evaluations_app es1 : forall s es2 u, rexec s es1 = Some u -> evaluations s (es1 ++ es2) = evaluations s es1 ++ evaluations u es2.
Proof.
  induction es1 as [|a es IH]; intros s es2 u E; cbn [RecModel.rexec app evaluations] in *; [now injection E as ->|].
  destruct (rstep s a) as [x|]; [|discriminate]. now rewrite <- app_assoc, (IH _ _ _ E).
Qed.
(** each beginning of the log gives a run in the sense of C62 *)
Lemma log_run nd nm p0 h0 es : locked h0 = false -> pop_run hash nd nm p0 h0 -> forall s, rexec (rinit p0 h0) es = Some s ->
  ok_evals nd (evaluations (rinit p0 h0) es) -> distinct (rinit p0 h0) es ->
  forall a b, rlog s = a ++ b -> pop_run hash nd nm (lists p0 a) (hexec hash h0 (allhops p0 a)).
Proof.
  intros L R. induction es as [|e es IH] using rev_ind; intros t E O D a b Eq.
  - injection E as <-. cbn [rinit rlog] in Eq. symmetry in Eq. apply app_eq_nil in Eq. destruct Eq as [-> _]. exact R.
  - destruct (rexec_snoc _ _ _ _ E) as (s & E1 & E2).
    assert (O1 : ok_evals nd (evaluations (rinit p0 h0) es)).
    { rewrite (evaluations_snoc _ _ _ _ _ E1 E2) in O. apply Forall_app in O. tauto. }
    assert (D1 : distinct (rinit p0 h0) es). { intros x y u -> X. apply (D x (y ++ [e]) u); [now rewrite app_assoc|exact X]. }
    specialize (IH s E1 O1 D1).
    destruct (rlog_snoc _ _ _ _ _ _ E1 E2) as [Sm|(op & r & Sn & Ir & Op)]; [rewrite Sm in Eq; eauto|].
    destruct (list_eq_dec Nat.eq_dec (map (fun _ => 0) b) []) as [Nb|Nb].
    + destruct b; [|discriminate]. rewrite app_nil_r in Eq. subst a. rewrite Sn, lists_snoc, allhops_snoc, hexec_app.
      destruct (rinv_run p0 h0 _ L t E) as [_ [Vt At _]]. rewrite Sn in Vt, At. apply Forall_app in Vt. destruct Vt as [_ Vo]. inversion Vo as [|? ? V1 _]; subst.
      rewrite lists_snoc in At. rewrite <- (lists_len (rlog s) p0) in V1.
      assert (PS := pop_step_hops (lists p0 (rlog s)) (hexec hash h0 (allhops p0 (rlog s))) op V1). fold (on_list (lists p0 (rlog s)) op) in PS.
      eapply pr_step; [apply (IH (rlog s) []); now rewrite app_nil_r| |exact PS|].
      * rewrite (evaluations_snoc _ _ _ _ _ E1 E2) in O. apply Forall_app in O. destruct O as [_ O]. apply in_map_iff in Ir. destruct Ir as (x & <- & Ix).
        rewrite Forall_forall in O. assert (Ox := O x Ix). destruct Op as [o [[k ->]| ->]]; cbn [ok_call valid] in *; auto.
      * rewrite <- At. apply (D (es ++ [e]) [] t); [now rewrite app_nil_r|exact E].
    + assert (B : exists b', b = b' ++ [op]).
      { destruct (exists_last (l := b)) as (b' & x & ->); [intros ->; now apply Nb|]. rewrite Sn, app_assoc in Eq. apply app_inj_tail in Eq. destruct Eq as [_ ->]. eauto. }
      destruct B as [b' ->]. rewrite Sn, app_assoc in Eq. apply app_inj_tail in Eq. destruct Eq as [Eq _]. eauto.
Qed.
(** Once the updates have been made, the population records of the history are, one for one, the
    members with finite SSE, whatever the order in which the evaluations ended *)
Theorem C104_members : forall nd nm p0 h0 es s, pop_run hash nd nm p0 h0 -> locked h0 = false ->
  rexec (rinit p0 h0) es = Some s -> ok_evals nd (evaluations (rinit p0 h0) es) -> distinct (rinit p0 h0) es -> rq s = [] ->
  exists rows, Forall2 (fun i r => X (rh s) r = map rnd32 (iSSE i :: ivals i)) (filter (fun i => isfin (iSSE i)) (pop (rs s))) rows /\
    NoDup rows /\ (forall r, In r rows <-> In r (Kp (rh s))).
Proof.
  intros nd nm p0 h0 es s R L E O D Q. assert (PR := log_run nd nm p0 h0 es L R s E O D (rlog s) [] (eq_sym (app_nil_r _))).
  destruct (rinv_run p0 h0 es L s E) as [_ [V A _]].
  destruct (C104_sequential p0 h0 es s L E) as [_ B]. destruct (B Q) as [U B']. rewrite <- (C104_consequences _ _ _ _ E), (pop_exec_lists _ _ _ V) in B'. cbn [snd] in B'.
  rewrite <- A, <- B' in PR. exact (C62_members hash nd nm _ _ PR U).
Qed.

(** *** the number of records *)
Lemma add_total h i never o : locked h = false -> locked (hexec hash h [OAdd (iSSE i) i never o]) = false ->
  total (hexec hash h [OAdd (iSSE i) i never o]) = total h + (if isfin (iSSE i) then 1 else 0).
Proof.
  intros L. rewrite hexec1. unfold hstep, h_add. destruct (isfin (iSSE i)); cbn [negb fst]; [|intros _; lia]. rewrite L.
  assert (A : forall g N, locked (fst (add_at hash g (iSSE i) N i never)) = false -> total (fst (add_at hash g (iSSE i) N i never)) = total g + 1).
  { intros g N. unfold add_at. destruct (if N =? 0 then Ok (0, 0) else kkr g (iSSE i) N) as [[k r]|e]; [|discriminate].
    unfold write_record. destruct (negb (r <? nmax g)); [discriminate|]. destruct (row_of (Nd g) i) as [row|e]; [|discriminate]. destruct never.
    - destruct (set_row (cp g) r row true); [|discriminate]. intros _. cbn. lia.
    - destruct (pack_overflow i); [discriminate|]. intros _. cbn. lia. }
  destruct (length (K h) <? nmax h); [apply A|]. destruct (cpf_call Np_max (cp h) o) as [[kr|e]|]; try discriminate.
  unfold purge. destruct (mem kr (K h)); [|discriminate]. intros U. rewrite (A _ _ U). reflexivity.
Qed.
Lemma notin_total h i : total (hexec hash h [ONotIn i]) = total h.
Proof.
  rewrite hexec1. unfold hstep, not_in_pop. destruct (locked h); [reflexivity|]. destruct (pack_overflow i); [reflexivity|]. destruct (zget (krd h) (hash i)); [|reflexivity].
  unfold not_in_row. destruct (if n <? nmax h then _ else _); reflexivity.
Qed.
(** the individual that an operation records *)
Definition brought (op : pop_op) : list ind := match op with PAppend i _ | PSet _ i _ | PLose i _ => [i] | _ => [] end.
Lemma unlocked_before ops h : locked (hexec hash h ops) = false -> locked h = false.
Proof. intros U. destruct (locked h) eqn:L; [|reflexivity]. now rewrite (hexec_locked hash ops h L) in U. Qed.
Lemma total_log n ops : forall l h, Forall (valid n) ops -> locked (hexec hash h (allhops l ops)) = false ->
  total (hexec hash h (allhops l ops)) = total h + length (filter (fun i => isfin (iSSE i)) (flat_map brought ops)).
Proof.
  induction ops as [|op ops IH]; intros l h V U; [cbn; lia|]. inversion V as [|? ? V1 V2]; subst. cbn [allhops] in *. rewrite hexec_app in *.
  assert (U1 := unlocked_before _ _ U). rewrite (IH _ _ V2 U). cbn [flat_map]. rewrite filter_app, app_length.
  enough (total (hexec hash h (hops l op)) = total h + length (filter (fun i => isfin (iSSE i)) (brought op))) by lia.
  clear U. destruct op as [i o|k i o|i o|k|]; try destruct V1; cbn [hops brought filter] in *.
  all: try (rewrite hexec_app in *; set (g := hexec hash h (match nth_error l k with Some prev => [ONotIn prev] | None => [] end)) in *;
    assert (Tg : total g = total h) by (unfold g; destruct (nth_error l k); [apply notin_total|reflexivity]); rewrite <- Tg; clearbody g).
  all: assert (U2 := unlocked_before _ _ U1); destruct (isfin (iSSE i)) eqn:F; cbn [length]; [rewrite (add_total _ _ _ _ U2 U1), F; reflexivity|cbn; lia].
Qed.
(** the challengers whose evaluation is recorded: those that won, and those that lost unless
    evaluations are cut short *)
Definition recorded (x : nat * ind * ind) : bool := let '(k, it, r) := x in (better r it || negb xSSE) && isfin (iSSE r).
(** Once the updates have been made, N_total has grown by the number of evaluations that ended with
    a finite SSE and are recorded: none is lost, none is recorded twice *)
Theorem C104_total : forall p0 h0 es s, locked h0 = false -> rexec (rinit p0 h0) es = Some s -> rq s = [] ->
  total (rh s) = total h0 + length (filter recorded (evaluations (rinit p0 h0) es)).
Proof.
  intros p0 h0 es s L E Q. destruct (rinv_run p0 h0 es L s E) as [_ [V A _]]. destruct (C104_sequential p0 h0 es s L E) as [_ B]. destruct (B Q) as [U B'].
  rewrite <- (C104_consequences _ _ _ _ E), (pop_exec_lists _ _ _ V) in B'. cbn [snd] in B'. rewrite B' in U |- *. rewrite (total_log _ _ _ _ V U).
  f_equal. rewrite (C104_consequences _ _ _ _ E). generalize 0. generalize (evaluations (rinit p0 h0) es). clear. intros l.
  induction l as [|[[k it] r] l IH]; intros n; [reflexivity|]. cbn [consequences consequence filter recorded]. rewrite flat_map_app, filter_app, app_length, IH.
  destruct (better r it); cbn [flat_map brought filter app orb andb]; [destruct (isfin (iSSE r)); reflexivity|].
  destruct xSSE; cbn [flat_map brought filter app negb andb]; [reflexivity|]. destruct (isfin (iSSE r)); reflexivity.
Qed.

(** *** the lock *)
Lemma members_bound nd m h : Q hash nd m h -> length (nodup Nat.eq_dec (Kp h)) <= length m.
Proof.
  intros (A & B & C & D & E & F & G). set (f := fun i => match zget (krd h) (hash i) with Some r => r | None => 0 end).
  rewrite <- (map_length f m). apply NoDup_incl_length; [apply NoDup_nodup|]. intros r Ir. apply nodup_In in Ir. destruct (F r Ir) as (q & Hq). destruct (E q r Hq) as (i & I1 & _ & <-).
  apply in_map_iff. exists i. split; [|exact I1]. unfold f. destruct (zget_some _ _ _ Hq) as (r' & Z). rewrite Z. apply zget_in in Z. eauto.
Qed.
Lemma room nd m h i never o : Q hash nd m h -> locked h = false -> length m < nmax h -> ok_ind nd i -> cpf_call Np_max (cp h) o <> None ->
  locked (fst (hstep hash h (OAdd (iSSE i) i never o))) = false.
Proof.
  intros HQ U Lt O NC. assert (MB := members_bound nd m h HQ). destruct HQ as (A & B & _). unfold hstep. destruct O as [Nf|Ft].
  - unfold h_add. rewrite Nf. exact U.
  - assert (Gd : good h i) by (unfold good; rewrite B; exact Ft). destruct (add_spec hash h i never o A Gd U) as [S1 S2].
    assert (Ok1 : forall h' v, h_add hash h (iSSE i) i never o = (h', Ret v) -> locked (fst (h_add hash h (iSSE i) i never o)) = false).
    { intros h' v E. rewrite E. cbn [fst]. eapply (hstep_ret h (OAdd (iSSE i) i never o)); [exact U|exact E]. }
    destruct (Nat.lt_ge_cases (length (K h)) (nmax h)) as [Lk|Ge].
    + destruct (S1 Lk) as (h' & E & _). eapply Ok1; eauto.
    + assert (Full : length (K h) = nmax h) by (destruct A; lia). specialize (S2 Full). destruct (cpf_call Np_max (cp h) o) as [[g|e]|]; [|exfalso|congruence].
      * destruct S2 as (_ & h' & E & _). eapply Ok1; eauto.
      * destruct S2 as (_ & Ek & _).
        assert (Inc : incl (K h) (nodup Nat.eq_dec (Kp h))).
        { intros r Ir. apply nodup_In. apply (i_cover h A) in Ir. rewrite Ek in Ir. destruct Ir as [|[]]; auto. }
        assert (L1 := NoDup_incl_length (i_nodup h A) Inc). lia.
Qed.
Lemma hstep_nmax h op : nmax (fst (hstep hash h op)) = nmax h.
Proof.
  unfold hstep. destruct op as [sse i never o|i|kr| |].
  - unfold h_add. destruct (isfin sse); cbn [negb]; [|reflexivity]. destruct (locked h); [reflexivity|].
    assert (A : forall g N, nmax (fst (add_at hash g sse N i never)) = nmax g).
    { intros g N. unfold add_at. destruct (if N =? 0 then Ok (0, 0) else kkr g sse N) as [[k r]|e]; [|reflexivity].
      unfold write_record. destruct (negb (r <? nmax g)); [reflexivity|]. destruct (row_of (Nd g) i) as [row|e]; [|reflexivity]. destruct never; [destruct (set_row (cp g) r row true)|destruct (pack_overflow i)]; reflexivity. }
    destruct (length (K h) <? nmax h); [apply A|]. destruct (cpf_call Np_max (cp h) o) as [[kr|e]|]; try reflexivity.
    unfold purge. destruct (mem kr (K h)); [|reflexivity]. rewrite A. reflexivity.
  - unfold not_in_pop. destruct (locked h); [reflexivity|]. destruct (pack_overflow i); [reflexivity|]. destruct (zget (krd h) (hash i)); [|reflexivity]. unfold not_in_row. destruct (if n <? nmax h then _ else _); reflexivity.
  - destruct (locked h); [reflexivity|]. unfold not_in_row. destruct (if kr <? nmax h then _ else _); reflexivity.
  - unfold purge_pop. destruct (locked h); [reflexivity|]. destruct (purge_all h (Kp h)) as [g|] eqn:E; [|reflexivity]. cbn [fst nmax]. revert E. generalize (Kp h). intros l. revert h.
    induction l as [|k l IH]; intros h E; cbn in E; [now injection E as <-|]. unfold purge in E. destruct (mem k (K h)); [|discriminate]. cbn [bind] in E. rewrite (IH _ E). reflexivity.
  - unfold h_clear. destruct (locked h); reflexivity.
Qed.
Lemma hexec_nmax ops : forall h, nmax (hexec hash h ops) = nmax h.
Proof. induction ops as [|op ops IH]; intros h; [reflexivity|]. cbn [hexec]. now rewrite IH, hstep_nmax. Qed.
Lemma at_head ops : forall l done o rest, allhops l ops = done ++ o :: rest ->
  exists a op b pre post, ops = a ++ op :: b /\ done = allhops l a ++ pre /\ hops (lists l a) op = pre ++ o :: post.
Proof.
  induction ops as [|x ops IH]; intros l done o rest E; cbn [allhops] in E; [destruct done; discriminate|].
  assert (K : (exists pre post, done = pre /\ hops l x = pre ++ o :: post) \/ exists d, done = hops l x ++ d /\ allhops (on_list l x) ops = d ++ o :: rest).
  { revert E. generalize (hops l x) as u. generalize (allhops (on_list l x) ops) as v. clear. intros v u. revert done. induction u as [|y u IH]; intros done E.
    - right. exists done. auto.
    - destruct done as [|z done]; cbn [app] in E; injection E as -> E; [left; exists [], u; auto|]. destruct (IH done E) as [(pre & post & -> & ->)|(d & -> & E')]; [left; exists (z :: pre), post; auto|right; exists d; auto]. }
  destruct K as [(pre & post & -> & E1)|(d & -> & E1)].
  - exists [], x, ops, pre, post. auto.
  - destruct (IH _ _ _ _ E1) as (a & op & b & pre & post & -> & -> & H). exists (x :: a), op, b, pre, post. cbn [app allhops lists]. now rewrite app_assoc.
Qed.
(** the search for the closest pair ends whenever it is made *)
Definition pairs_found (s0 : rc) (es : list rev_) : Prop :=
  forall es1 es2 u c sse i never o q, es = es1 ++ es2 -> rexec s0 es1 = Some u -> rq u = (c, OAdd sse i never o) :: q -> cpf_call Np_max (cp (rh u)) o <> None.
Lemma unlocked_run nd nm p0 h0 es : pop_run hash nd nm p0 h0 -> locked h0 = false -> length p0 < nmax h0 -> forall s,
  rexec (rinit p0 h0) es = Some s -> ok_evals nd (evaluations (rinit p0 h0) es) -> distinct (rinit p0 h0) es -> pairs_found (rinit p0 h0) es ->
  forall o q, rq s = o :: q -> locked (rh s) = false ->
  cpf_call Np_max (cp (rh s)) (match snd o with OAdd _ _ _ o => o | _ => mkOrc (fun _ _ => fzero) (fun _ _ => 0) 0 end) <> None \/ (forall a b c d, snd o <> OAdd a b c d) ->
  locked (fst (hstep hash (rh s) (snd o))) = false.
Proof.
  intros R L Lt s E O D PF [c op] q Eq U NC. cbn [snd] in *. destruct (rinv_run p0 h0 es L s E) as [_ [V A (done & rest & B1 & B2 & B3)]].
  rewrite U, Eq in B3. cbn [map snd] in B3. subst rest. destruct (at_head _ _ _ _ _ (eq_sym B1)) as (a & pop & b & pre & post & E1 & -> & H).
  assert (PR := log_run nd nm p0 h0 es L R s E O D a (pop :: b) E1). rewrite hexec_app in B2.
  set (h1 := hexec hash h0 (allhops p0 a)) in *. set (l1 := lists p0 a) in *.
  assert (N1 : nmax h1 = nmax h0) by apply hexec_nmax. assert (Len : length l1 = length p0) by apply lists_len.
  assert (U1 : locked h1 = false) by (apply (unlocked_before pre); congruence).
  destruct (run_Q _ _ _ _ _ PR) as [ND HQ]. specialize (HQ U1).
  assert (PR2 : exists l2 h2, pop_run hash nd nm l2 h2 /\ pop_step hash (l1, h1) pop = (l2, h2, None) /\ ok_call nd (length l1) pop).
  { assert (E1' : rlog s = (a ++ [pop]) ++ b) by (rewrite <- app_assoc; exact E1). assert (PR2 := log_run nd nm p0 h0 es L R s E O D (a ++ [pop]) b E1').
    rewrite E1' in V. apply Forall_app in V. destruct V as [V _]. apply Forall_app in V. destruct V as [_ V]. inversion V as [|? ? V1 _]; subst. rewrite <- Len in V1.
    rewrite lists_snoc, allhops_snoc, hexec_app in PR2. fold l1 h1 in PR2. exists (on_list l1 pop), (hexec hash h1 (hops l1 pop)). split; [exact PR2|]. split; [apply pop_step_hops; exact V1|].
    assert (I : In pop (rlog s)) by (rewrite E1; apply in_or_app; right; now left). rewrite (C104_consequences _ _ _ _ E) in I. revert I O V1. clear. generalize (evaluations (rinit p0 h0) es). generalize 0. unfold ok_evals. intros n l. revert n.
    induction l as [|[[k it] r] l IH]; intros n I O V1; [destruct I|]. inversion O as [|? ? O1 O2]; subst. cbn [consequences] in I. apply in_app_or in I. destruct I as [I|I]; [|eapply IH; eauto].
    cbn [consequence snd] in *. destruct (better r it); [destruct I as [<-|[]]; cbn [ok_call valid] in *; auto|]. destruct xSSE; [destruct I|]. destruct I as [<-|[]]. exact O1. }
  destruct PR2 as (l2 & h2 & PR2 & PS & OC).
  assert (NCa : forall sse i never o, op = OAdd sse i never o -> cpf_call Np_max (cp (rh s)) o <> None).
  { intros sse i never o ->. destruct NC as [NC|NC]; [exact NC|]. now destruct (NC sse i never o). }
  destruct pop as [i o|k i o|i o|k|]; cbn [ok_call hops] in *; try (destruct pre; discriminate).
  - destruct OC as [OI Lk]. destruct (nth_error l1 k) as [prev|] eqn:Ek; [|apply nth_error_None in Ek; lia]. cbn [app] in H.
    destruct (nth_error_split _ _ Ek) as (x & y & El & Lx). rewrite El in HQ, ND. rewrite map_app in ND. cbn [map] in ND. apply NoDup_remove in ND. rewrite <- map_app in ND.
    destruct (Q_out hash nd (x ++ y) h1 prev) as [Q1 U2]; [eapply Q_perm; [apply Permutation_sym, Permutation_middle|exact HQ]|exact U1|tauto|].
    destruct pre as [|z pre].
    + cbn [app] in H. injection H as <- _. cbn [hexec] in B2. subst h1. rewrite B2. exact U2.
    + injection H as <- H. destruct (isfin (iSSE i)); [|destruct pre; discriminate]. destruct pre as [|z pre]; [|destruct pre; discriminate]. injection H as <- _.
      rewrite B2 in *. eapply (room nd (x ++ y)); [exact Q1|exact U2| |exact OI|eapply NCa; reflexivity].
      rewrite hexec_nmax, N1. rewrite El, app_length in Len. cbn [length] in Len. rewrite app_length. lia.
  - destruct (isfin (iSSE i)); [|destruct pre; discriminate]. destruct pre as [|z pre]; [|destruct pre; discriminate]. injection H as <- _. cbn [hexec] in B2.
    rewrite B2 in *. eapply (room nd l1); [exact HQ|exact U1|lia|exact OC|eapply NCa; reflexivity].
Qed.
(** With fewer members than the history has room for, and SSEs within the range of single
    precision, the lock of the history is always given back, as long as the search for the closest
    pair ends *)
Theorem C104_never_stuck : forall nd nm p0 h0 es s, pop_run hash nd nm p0 h0 -> locked h0 = false -> length p0 < nmax h0 ->
  rexec (rinit p0 h0) es = Some s -> ok_evals nd (evaluations (rinit p0 h0) es) -> distinct (rinit p0 h0) es -> pairs_found (rinit p0 h0) es ->
  locked (rh s) = false.
Proof.
  intros nd nm p0 h0 es s R L Lt. revert s. induction es as [|e es IH] using rev_ind; intros t E O D PF; [injection E as <-; exact L|].
  destruct (rexec_snoc _ _ _ _ E) as (s & E1 & E2).
  assert (O1 : ok_evals nd (evaluations (rinit p0 h0) es)) by (rewrite (evaluations_snoc _ _ _ _ _ E1 E2) in O; apply Forall_app in O; tauto).
  assert (D1 : distinct (rinit p0 h0) es) by (intros x y u -> X; apply (D x (y ++ [e]) u); [now rewrite app_assoc|exact X]).
  assert (P1 : pairs_found (rinit p0 h0) es) by (intros x y u c sse i never o q -> X; apply (PF x (y ++ [e]) u c sse i never o q); [now rewrite app_assoc|exact X]).
  assert (U := IH s E1 O1 D1 P1). destruct (rq s) as [|[c op] q] eqn:Qs.
  - destruct e as [e|]; cbn [RecModel.rstep] in E2; [|rewrite Qs in E2; discriminate].
    enough (rh t = rh s) by congruence. clear - E2. revert E2.
    destruct e as [q|c|c|c|c|c|c| | |n]; try (destruct (step _ _ _ _ _ (rs s) _) as [u|]; [|discriminate]; intros E2; injection E2 as <-; reflexivity).
    + destruct (step _ _ _ _ _ (rs s) _) as [u|]; [|discriminate]. destruct (nth_error (cs (rs s)) c) as [[q [| | |it ch| | | |]]|]; try discriminate. destruct (ev c it ch) as [r|]; [|intros E2; injection E2 as <-; reflexivity].
      destruct (run (rs s)); [|intros E2; injection E2 as <-; reflexivity]. destruct (better r it); [|destruct xSSE]; intros E2; injection E2 as <-; try reflexivity; cbn [note rh]; unfold req_add; destruct (isfin (iSSE r)); try reflexivity; destruct (nth_error (pop (rs s)) (kt q)); reflexivity.
    + destruct (find _ (rdone s)) as [[a b]|]; [|discriminate]. destruct (step _ _ _ _ _ (rs s) _) as [u|]; [|discriminate]. intros E2; injection E2 as <-; reflexivity.
  - destruct e as [e|]; cbn [RecModel.rstep] in E2.
    { enough (rh t = rh s) by congruence. clear - E2. revert E2.
      destruct e as [q|c|c|c|c|c|c| | |n]; try (destruct (step _ _ _ _ _ (rs s) _) as [u|]; [|discriminate]; intros E2; injection E2 as <-; reflexivity).
      + destruct (step _ _ _ _ _ (rs s) _) as [u|]; [|discriminate]. destruct (nth_error (cs (rs s)) c) as [[q [| | |it ch| | | |]]|]; try discriminate. destruct (ev c it ch) as [r|]; [|intros E2; injection E2 as <-; reflexivity].
        destruct (run (rs s)); [|intros E2; injection E2 as <-; reflexivity]. destruct (better r it); [|destruct xSSE]; intros E2; injection E2 as <-; try reflexivity; cbn [note rh]; unfold req_add; destruct (isfin (iSSE r)); try reflexivity; destruct (nth_error (pop (rs s)) (kt q)); reflexivity.
      + destruct (find _ (rdone s)) as [[a b]|]; [|discriminate]. destruct (step _ _ _ _ _ (rs s) _) as [u|]; [|discriminate]. intros E2; injection E2 as <-; reflexivity. }
    rewrite Qs, U in E2. assert (H := unlocked_run nd nm p0 h0 es R L Lt s E1 O1 D1 P1 (c, op) q Qs U). cbn [snd] in H.
    assert (NC : locked (fst (hstep hash (rh s) op)) = false).
    { apply H. destruct op as [sse i never o|i|kr| |]; [left|right; discriminate..]. apply (PF es [RH] s c sse i never o q); auto. }
    destruct (hstep hash (rh s) op) as [h out]. cbn [fst] in NC. destruct out; injection E2 as <-; exact NC.
Qed.
(** ... and then the updates that wait are made one after another *)
Theorem C104_drains : forall s, locked (rh s) = false -> rq s <> [] ->
  exists t, rstep s RH = Some t /\ rlog t = rlog s /\ rs t = rs s /\ (locked (rh t) = false -> length (rq t) < length (rq s)).
Proof.
  intros s U N. cbn [RecModel.rstep]. destruct (rq s) as [|[c op] q] eqn:Qs; [congruence|]. rewrite U. destruct (hstep hash (rh s) op) as [h out] eqn:HS.
  destruct out as [v|x|]; (eexists; split; [reflexivity|]); cbn [rlog rs rh rq]; (split; [reflexivity|]); (split; [reflexivity|]).
  - intros _. cbn [length]. lia.
  - intros ->. cbn [length]. lia.
  - intros Uh. assert (K := hstep_blocked _ _ _ U HS). congruence.
Qed.

(** *** the claim "every losing challenge goes on" is false once the lock is kept *)
Lemma set_pc_other c d p (l : list (chal ind)) : c <> d -> nth_error (set_pc d p l) c = nth_error l c.
Proof.
  intros N. unfold set_pc. destruct (nth_error l d) as [x|]; [|reflexivity]. generalize (mkChal (cq x) p). revert c d N. clear. induction l as [|y l IH]; intros [|c] [|d] N z; cbn; auto; congruence.
Qed.
Lemma release1_hist c q k (s : st ind) : nth_error (cs s) c = Some (mkChal q PHist) -> nth_error (cs (release1 k s)) c = Some (mkChal q PHist).
Proof.
  intros N. unfold release1. destruct (nth_error (locks s) k) as [[|a [|h r]]|]; auto. cbn [cs]. destruct (nth_error (cs s) h) as [x|] eqn:E; [|exact N].
  destruct (Nat.eq_dec c h) as [->|Ne].
  - rewrite N in E. injection E as <-. cbn [grant cpc]. revert N. generalize (cs s). clear. intros l. revert h. induction l as [|y l IH]; intros [|h] N; cbn in *; auto; discriminate.
  - rewrite <- N. generalize (grant k x). revert Ne. generalize (cs s). clear. intros l Ne z. revert c h Ne. induction l as [|y l IH]; intros [|c] [|h] Ne; cbn; auto; congruence.
Qed.
Lemma step_hist b c q (s : st ind) e t : step mk ev better b xSSE s e = Some t -> e <> EHistDone c -> nth_error (cs s) c = Some (mkChal q PHist) -> nth_error (cs t) c = Some (mkChal q PHist).
Proof.
  intros S Ne N.
  assert (G : forall d p, (forall x, nth_error (cs s) d = Some x -> cpc x <> PHist) -> nth_error (set_pc d p (cs s)) c = Some (mkChal q PHist)).
  { intros d p H. rewrite set_pc_other; [exact N|]. intros ->. exact (H _ N eq_refl). }
  destruct e as [q'|d|d|d|d|d|d| | |n]; cbn [step] in S.
  - destruct (ChalModel.run s && okquad (length (pop s)) q'); [|discriminate].
    destruct (prun s); injection S as <-; cbn [cs with_cs]; (rewrite nth_error_app1; [exact N|]); apply nth_error_Some; congruence.
  - destruct (nth_error (cs s) d) as [[q' [[|]| | | | | | |]]|] eqn:D; try discriminate. destruct (run s).
    + destruct (nth_error (pop s) (kt q')), (nth_error (pop s) (kb q')), (nth_error (pop s) (k0 q')), (nth_error (pop s) (k1 q')); injection S as <-; cbn [cs goto with_cs]; apply G; intros x X; rewrite D in X; injection X as <-; discriminate.
    + injection S as <-. cbn [cs goto with_cs]; apply G; intros x X; rewrite D in X; injection X as <-; discriminate.
  - destruct (nth_error (cs s) d) as [[q' [|[|k l]|it ib i0 i1 [|k l]| | | | |]]|] eqn:D; try discriminate; injection S as <-; try apply release1_hist; cbn [cs goto with_cs]; apply G; intros x X; rewrite D in X; injection X as <-; discriminate.
  - destruct (nth_error (cs s) d) as [[q' [| |it ib i0 i1 [|]| | | | |]]|] eqn:D; try discriminate. destruct (mk d it ib i0 i1); injection S as <-; cbn [cs goto with_cs]; apply G; intros x X; rewrite D in X; injection X as <-; discriminate.
  - destruct (nth_error (cs s) d) as [[q' [| | |it ch| | | |]]|] eqn:D; try discriminate. destruct (ev d it ch) as [r|]; [destruct (run s); [destruct (better r it)|]|]; injection S as <-; cbn [cs goto with_cs]; apply G; intros x X; rewrite D in X; injection X as <-; discriminate.
  - destruct (nth_error (cs s) d) as [[q' [| | | | | | |]]|] eqn:D; try discriminate. injection S as <-. cbn [cs goto with_cs]. rewrite set_pc_other; [exact N|]. congruence.
  - destruct (nth_error (cs s) d) as [[q' [| | | | | | |]]|] eqn:D; try discriminate. injection S as <-. apply release1_hist. cbn [cs goto with_cs]; apply G; intros x X; rewrite D in X; injection X as <-; discriminate.
  - injection S as <-. exact N.
  - injection S as <-. exact N.
  - destruct (nth_error (abq s) n); [|discriminate]. injection S as <-. apply release1_hist. exact N.
Qed.
Definition waiting (c : nat) (q : quad) (s : rc) : Prop := nth_error (cs (rs s)) c = Some (mkChal q PHist) /\ find (fun p => fst p =? c) (rdone s) = None.
Lemma find_app_none c l d b : find (fun p : nat * bool => fst p =? c) l = None -> c <> d -> find (fun p => fst p =? c) (l ++ [(d, b)]) = None.
Proof. intros F N. induction l as [|x l IH]; cbn in *; [destruct (Nat.eqb_spec d c); congruence|]. destruct (fst x =? c); [discriminate|auto]. Qed.
Lemma hist_stays c q s e t : rstep s e = Some t -> locked (rh s) = true -> waiting c q s -> locked (rh t) = true /\ waiting c q t.
Proof.
  intros S L [N F]. destruct e as [e|]; cbn [RecModel.rstep] in S; [|destruct (rq s) as [|[? ?] ?]; [discriminate|rewrite L in S; discriminate]].
  destruct e as [q'|d|d|d|d|d|d| | |n];
    try (destruct (step _ _ _ _ _ (rs s) _) as [u|] eqn:E; [|discriminate]; injection S as <-; split; [exact L|]; split; [|exact F]; cbn [rs]; eapply step_hist; [exact E|discriminate|exact N]).
  - destruct (step _ _ _ _ _ (rs s) _) as [u|] eqn:E; [|discriminate]. assert (N' := step_hist _ c q _ _ _ E ltac:(discriminate) N).
    destruct (nth_error (cs (rs s)) d) as [[q' [| | |it ch| | | |]]|] eqn:D; try discriminate. assert (cd : c <> d) by congruence.
    destruct (ev d it ch) as [r|]; [|injection S as <-; split; [exact L|split; [exact N'|exact F]]]. destruct (run (rs s)); [|injection S as <-; split; [exact L|split; [exact N'|exact F]]].
    destruct (better r it).
    + injection S as <-. unfold waiting, note, req_add. cbn [rh rs rdone]. destruct (isfin (iSSE r)); cbn [rh rs rdone]; destruct (nth_error (pop (rs s)) (kt q')); cbn [rh rs rdone]; auto.
    + destruct xSSE; injection S as <-; [split; [exact L|split; [exact N'|exact F]]|]. unfold waiting, note, req_add. cbn [rh rs rdone].
      destruct (isfin (iSSE r)); cbn [rh rs rdone]; auto. split; [exact L|]. split; [exact N'|]. now apply find_app_none.
  - destruct (Nat.eq_dec d c) as [->|Ne]; [rewrite F in S; discriminate|]. destruct (find _ (rdone s)) as [[a b]|]; [|discriminate]. destruct (step _ _ _ _ _ (rs s) _) as [u|] eqn:E; [|discriminate]. injection S as <-.
    split; [exact L|]. split; [|exact F]. cbn [rs]. eapply step_hist; [exact E|congruence|exact N].
Qed.
(** If the lock of the history has been kept, a losing challenge whose record is not made waits
    forever, whatever happens *)
Theorem C104_hang_refuted : forall c q s es t, locked (rh s) = true -> waiting c q s -> rexec s es = Some t ->
  nth_error (cs (rs t)) c = Some (mkChal q PHist) /\ rh t = rh s.
Proof.
  intros c q s es. revert s. induction es as [|e es IH]; intros s t L W E; cbn [RecModel.rexec] in E; [injection E as <-; split; [apply W|reflexivity]|].
  destruct (rstep s e) as [u|] eqn:S; [|discriminate]. destruct (hist_stays _ _ _ _ _ S L W) as [L' W']. destruct (IH u t L' W' E) as [A B]. split; [exact A|]. rewrite B.
  clear - S L. destruct e as [e|]; cbn [RecModel.rstep] in S; [|destruct (rq s) as [|[? ?] ?]; [discriminate|rewrite L in S; discriminate]]. revert S.
  destruct e as [q|c|c|c|c|c|c| | |n]; try (destruct (step _ _ _ _ _ (rs s) _) as [x|]; [|discriminate]; intros E2; injection E2 as <-; reflexivity).
  - destruct (step _ _ _ _ _ (rs s) _) as [x|]; [|discriminate]. destruct (nth_error (cs (rs s)) c) as [[q [| | |it ch| | | |]]|]; try discriminate. destruct (ev c it ch) as [r|]; [|intros E2; injection E2 as <-; reflexivity].
    destruct (run (rs s)); [|intros E2; injection E2 as <-; reflexivity]. destruct (better r it); [|destruct xSSE]; intros E2; injection E2 as <-; try reflexivity; cbn [note rh]; unfold req_add; destruct (isfin (iSSE r)); try reflexivity; destruct (nth_error (pop (rs s)) (kt q)); reflexivity.
  - destruct (find _ (rdone s)) as [[a b]|]; [|discriminate]. destruct (step _ _ _ _ _ (rs s) _) as [x|]; [|discriminate]. intros E2; injection E2 as <-; reflexivity.
Qed.
(** An operation on the history whose search for a record to drop never ends keeps the lock, and
    every challenge that waited for the history, its own included, still waits *)
Theorem C104_blocked_refuted : forall x op q s, locked (rh s) = false -> rq s = (x, op) :: q -> snd (hstep hash (rh s) op) = Blocked ->
  exists t, rstep s RH = Some t /\ locked (rh t) = true /\ forall c p, waiting c p s ->
    forall es u, rexec t es = Some u -> nth_error (cs (rs u)) c = Some (mkChal p PHist).
Proof.
  intros x op q s L Q B. cbn [RecModel.rstep]. rewrite Q, L. destruct (hstep hash (rh s) op) as [h o] eqn:E. cbn [snd] in B. subst o.
  eexists. split; [reflexivity|]. assert (L' := hstep_blocked _ _ _ L E). split; [exact L'|]. intros c p W es u R.
  refine (proj1 (C104_hang_refuted c p _ es u _ _ R)); [exact L'|exact W].
Qed.
End C104.
Print Assumptions C104_blocked_refuted.
Print Assumptions C104_consequences.
Print Assumptions C104_sequential.
Print Assumptions C104_members.
Print Assumptions C104_total.
Print Assumptions C104_never_stuck.
Print Assumptions C104_drains.
Print Assumptions C104_hang_refuted.

(** ** Examples *)
(** four members and room for five records; the first challenger wins, the second loses and makes
    the history full *)
Definition mk1 (c : nat) (it ib i0 i1 : ind) : mkres ind := Candidate i0.
Definition ev1 (c : nat) (it ch : ind) : option ind := Some (match c with 0 => an 3 | _ => an 9 end).
Definition lt1 (a b : ind) : bool := fltb (iSSE a) (iSSE b).
Definition start1 : list pop_op := [PAppend (an 5) o0; PAppend (an 6) o0; PAppend (an 7) o0; PAppend (an 8) o0].
Definition p1 : list ind := fst (pexec start1).
Definition h1 : hist := snd (pexec start1).
Definition chal1 (c : nat) (q : quad) : list rev_ := map RC [ERequest q; EResume c; ERelease c; ERelease c; ERelease c; EMutate c; EEvalDone c].
Definition es1 : list rev_ := chal1 0 (mkQuad 0 1 2 3) ++ [RC (ERelT 0)] ++ chal1 1 (mkQuad 1 0 2 3) ++ [RH; RH; RH; RC (EHistDone 1); RC (ERelT 1)].
Definition run1 (es : list rev_) : option rc := rexec hash0 mk1 ev1 lt1 false (fun _ => o0) (rinit p1 h1) es.
(** a claim about all beginnings of a sequence of events can be checked one by one *)
Lemma prefixes (P : rc -> bool) es :
  forallb (fun n => match run1 (firstn n es) with Some u => P u | None => true end) (seq 0 (S (length es))) = true ->
  forall a b u, es = a ++ b -> run1 a = Some u -> P u = true.
Proof.
  intros F a b u -> R. rewrite forallb_forall in F. specialize (F (length a)). rewrite in_seq, app_length in F. specialize (F ltac:(lia)).
  rewrite firstn_app, Nat.sub_diag, firstn_all in F. cbn [firstn] in F. rewrite app_nil_r, R in F. exact F.
Qed.
Fixpoint distinctb (l : list Z) : bool := match l with [] => true | x :: l => negb (existsb (Z.eqb x) l) && distinctb l end.
Lemma distinctb_spec l : distinctb l = true -> NoDup l.
Proof.
  induction l as [|x l IH]; intros H; [constructor|]. cbn in H. apply andb_true_iff in H. destruct H as [A B]. constructor; [|auto]. intros I.
  apply negb_true_iff in A. rewrite <- not_true_iff_false in A. apply A. apply existsb_exists. exists x. split; [exact I|apply Z.eqb_refl].
Qed.
Lemma start1_run : pop_run hash0 1 5 p1 h1.
Proof.
  unfold p1, h1, pexec. apply run_exec; [apply pr_start; lia|]. unfold start1.
  repeat (match goal with |- _ /\ _ => split end; [cbn [ok_call]; right; apply an_fit; vm_compute; reflexivity|];
     split; [apply distinctb_spec; vm_compute; reflexivity|]).
  exact Logic.I.
Qed.
Example C104_example : pop_run hash0 1 5 p1 h1 /\ locked h1 = false /\ length p1 < nmax h1 /\
  ok_evals 1 (evaluations hash0 mk1 ev1 lt1 false (fun _ => o0) (rinit p1 h1) es1) /\
  distinct hash0 mk1 ev1 lt1 false (fun _ => o0) (rinit p1 h1) es1 /\ pairs_found hash0 mk1 ev1 lt1 false (fun _ => o0) (rinit p1 h1) es1 /\
  option_map (fun s => (rq s, map hash0 (pop (rs s)), total (rh s), Kp (rh s), length (K (rh s)), locked (rh s), map hash0 (flat_map brought (rlog s)))) (run1 es1)
    = Some ([], [3; 6; 7; 8]%Z, 6, [1; 2; 3; 4], 5, false, [3; 9]%Z) /\
  option_map (fun s => length (rq s)) (run1 (firstn 15 es1)) = Some 3.
Proof.
  split; [exact start1_run|]. split; [vm_compute; reflexivity|]. split; [vm_compute; lia|]. split; [|split; [|split; [|split; vm_compute; reflexivity]]].
  - generalize (rinit p1 h1) as s. generalize es1 as es. induction es as [|e es IH]; intros s; cbn [evaluations]; [constructor|].
    destruct (RecModel.rstep _ _ _ _ _ _ s e) as [t|]; [|constructor]. apply Forall_app. split; [|apply IH].
    destruct e as [[q|c|c|c|c|c|c| | |n]|]; cbn [evaluation]; try constructor. destruct (nth_error (cs (rs s)) c) as [[q [| | |it ch| | | |]]|]; try constructor.
    cbn [ev1]. destruct (ChalModel.run (rs s)); constructor; [|constructor]. cbn [snd]. right. destruct c; apply an_fit; vm_compute; reflexivity.
  - intros a b u E R. apply distinctb_spec. revert a b u E R. apply (prefixes (fun u => distinctb (map hash0 (pop (rs u))))). vm_compute. reflexivity.
  - intros a b u c sse i never o q E R Q.
    assert (P := prefixes (fun u => match rq u with (_, OAdd _ _ _ o) :: _ => match cpf_call Np_max (cp (rh u)) o with None => false | _ => true end | _ => true end) es1 ltac:(vm_compute; reflexivity) a b u E R).
    cbv beta in P. rewrite Q in P. destruct (cpf_call Np_max (cp (rh u)) o); [discriminate|discriminate P].
Qed.
(** A losing challenger whose SSE is beyond the range of single precision: its challenge ends with
    an exception, the lock is kept, and the next losing challenge, concerning other members,
    waits forever *)
Definition ev2 (c : nat) (it ch : ind) : option ind := Some (match c with 0 => huge | _ => an 99 end).
Definition p2 : list ind := map an [5; 6; 7; 8; 15; 16; 17; 18]%Z.
Definition h2 : hist := snd (pop_exec hash0 ([], h_init 1 0) (map (fun i => PAppend i o0) p2)).
Definition es2 : list rev_ := chal1 0 (mkQuad 0 1 2 3) ++ [RH; RC (EHistDone 0)] ++ chal1 1 (mkQuad 4 5 6 7).
Definition run2 : option rc := rexec hash0 mk1 ev2 lt1 false (fun _ => o0) (rinit p2 h2) es2.
Theorem C104_hang_reached_refuted : exists s, run2 = Some s /\ locked h2 = false /\ locked (rh s) = true /\ waiting 1 (mkQuad 4 5 6 7) s /\
  nth_error (cs (rs s)) 0 = Some (mkChal (mkQuad 0 1 2 3) PFail) /\ isfin (iSSE huge) = true.
Proof.
  assert (V : option_map (fun s => (locked (rh s), nth_error (cs (rs s)) 1, find (fun p => fst p =? 1) (rdone s), nth_error (cs (rs s)) 0)) run2
    = Some (true, Some (mkChal (mkQuad 4 5 6 7) PHist), None, Some (mkChal (mkQuad 0 1 2 3) PFail))) by (vm_compute; reflexivity).
  assert (L : locked h2 = false) by (vm_compute; reflexivity). assert (F : isfin (iSSE huge) = true) by (vm_compute; reflexivity).
  revert V L F. generalize run2, h2, huge. intros [s|] h i V L F; [|discriminate]. cbn [option_map] in V. injection V as V1 V2 V3 V4.
  exists s. unfold waiting. auto 12.
Qed.
Print Assumptions C104_hang_reached_refuted.
(** A full history of 150 records of no members, and a losing challenge whose search for the
    record to drop finds no pairs: it is left waiting *)
Definition h3 : hist := HistProps.run 150 (map (fun n => addn (Z.of_nat n)) (seq 1 150)).
Definition run3 : option rc := rexec hash0 mk1 (fun _ _ _ => Some (an 99)) lt1 false (fun _ => o0) (rinit p2 h3) (chal1 0 (mkQuad 0 1 2 3)).
Example C104_blocked_ex : exists s op, run3 = Some s /\ locked (rh s) = false /\ rq s = [(Some 0, op)] /\ snd (hstep hash0 (rh s) op) = Blocked /\
  waiting 0 (mkQuad 0 1 2 3) s.
Proof.
  assert (V : option_map (fun s => (locked (rh s), nth_error (cs (rs s)) 0, find (fun p => fst p =? 0) (rdone s), map fst (rq s),
     match rq s with (_, op) :: _ => match snd (hstep hash0 (rh s) op) with Blocked => true | _ => false end | [] => false end)) run3
    = Some (false, Some (mkChal (mkQuad 0 1 2 3) PHist), None, [Some 0], true)) by (vm_compute; reflexivity).
  revert V. generalize run3. intros [s|] V; [|discriminate]. cbn [option_map] in V. injection V as V1 V2 V3 V4 V5.
  destruct (rq s) as [|[x op] [|? ?]] eqn:Q; try discriminate. cbn [map fst] in V4. injection V4 as ->. exists s, op. split; [reflexivity|]. split; [exact V1|]. split; [exact Q|].
  split; [|split; [exact V2|exact V3]]. destruct (snd (hstep hash0 (rh s) op)); try discriminate. reflexivity.
Qed.

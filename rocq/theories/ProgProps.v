(** * Properties of the progress symbols (C86). *)
From Coq Require Import Bool Arith ZArith Ascii String List Lia.
From Verif Require Import Flt Py MsgModel MsgProps ProgModel.
Import ListNotations.
Local Open Scope nat_scope.

(** ** Vocabulary of the statements *)
(** no part of the text without a line break is longer than n *)
Definition narrow (n : nat) (t : text) : Prop := forall a l b, t = a ++ l ++ b -> ~ In NL l -> length l <= n.
(** What may be written between progress symbols: lines (writeLine, or msg with
    whatever ends in writeLine) no wider than n, line breaks, nothing *)
Definition line_op (n : nat) broken fmt (op : mop) : Prop := forall s, exists s0, (s0 = s \/ s0 = fst (line_written s)) /\
  (m_step broken fmt s op = s0 \/ m_step broken fmt s op = write_char broken s0 [NL] \/
   exists t, narrow n t /\ m_step broken fmt s op = write_line broken s0 t).
(** a history of progress symbols, resets and lines *)
Definition p_tame (n : nat) broken fmt (op : pop) : Prop :=
  match op with PSym c => c <> NL | PReset => True | PMsg op => line_op n broken fmt op end.
(** the messenger just set to write to [h], and a new reporter *)
Definition p_start broken fmt (h : handle) : mst * nat := (m_exec broken fmt m_init [MCall [AHandle h]], 0).

(** ** Lemmas *)
(** the longest line, and the length of the last one *)
Definition wstep (mc : nat * nat) (x : ascii) : nat * nat :=
  if Ascii.eqb x NL then (fst mc, 0) else (Nat.max (fst mc) (S (snd mc)), S (snd mc)).
Definition wid (t : text) : nat * nat := fold_left wstep t (0, 0).
Lemma wid_app t u : wid (t ++ u) = fold_left wstep u (wid t).
Proof. unfold wid. apply fold_left_app. Qed.
Lemma wf_mono u : forall mc, fst mc <= fst (fold_left wstep u mc).
Proof.
  induction u as [|x u IH]; intros mc; [cbn; lia|]. cbn [fold_left]. specialize (IH (wstep mc x)).
  unfold wstep in *. destruct (Ascii.eqb x NL); cbn in *; lia.
Qed.
Lemma wf_run l : ~ In NL l -> forall mc, snd (fold_left wstep l mc) = snd mc + length l /\ (l = [] \/ snd mc + length l <= fst (fold_left wstep l mc)).
Proof.
  induction l as [|x l IH]; intros N mc; [cbn; split; auto|]. cbn [fold_left length].
  assert (X : Ascii.eqb x NL = false) by (apply Ascii.eqb_neq; intros ->; apply N; left; reflexivity).
  destruct (IH (fun I => N (or_intror I)) (wstep mc x)) as [A B]. rewrite A. unfold wstep in *. rewrite X in *. cbn [fst snd] in *.
  split; [lia|]. right. destruct B as [->|B]; cbn [fold_left fst length] in *; lia.
Qed.
Lemma wid_att t : exists a l b, t = a ++ l ++ b /\ ~ In NL l /\ length l = fst (wid t).
Proof.
  assert (H : (exists a l b, t = a ++ l ++ b /\ ~ In NL l /\ length l = fst (wid t)) /\
              (exists a l, t = a ++ l /\ ~ In NL l /\ length l = snd (wid t))); [|apply H].
  induction t as [|x t [(a & l & b & E & N & L) (a' & l' & E' & N' & L')]] using rev_ind.
  { split; [exists [], [], []|exists [], []]; repeat split; auto. }
  rewrite wid_app. cbn [fold_left]. unfold wstep. destruct (Ascii.eqb_spec x NL) as [->|D]; cbn [fst snd].
  - split.
    + exists a, l, (b ++ [NL]). split; [rewrite E at 1; rewrite <- !app_assoc; reflexivity|auto].
    + exists (t ++ [NL]), []. rewrite app_nil_r. auto.
  - assert (NN : ~ In NL (l' ++ [x])) by (rewrite in_app_iff; cbn; intuition).
    split.
    + destruct (Nat.max_spec (fst (wid t)) (S (snd (wid t)))) as [[_ ->]|[_ ->]].
      * exists a', (l' ++ [x]), []. rewrite app_nil_r, app_assoc, <- E'. rewrite app_length. cbn. repeat split; auto. lia.
      * exists a, l, (b ++ [x]). split; [rewrite E at 1; rewrite <- !app_assoc; reflexivity|auto].
    + exists a', (l' ++ [x]). rewrite app_assoc, <- E', app_length. cbn. repeat split; auto. lia.
Qed.
Lemma wid_narrow n t : narrow n t <-> fst (wid t) <= n.
Proof.
  split.
  - intros H. destruct (wid_att t) as (a & l & b & E & N & L). rewrite <- L. eapply H; eauto.
  - intros H a l b E N. subst t. rewrite wid_app, fold_left_app in H. pose proof (wf_mono b (fold_left wstep l (wid a))) as M.
    destruct (wf_run l N (wid a)) as [_ [->|B]]; cbn [length]; lia.
Qed.
(** a text put at the beginning of a line *)
Lemma wid_bol u : forall m, fst (fold_left wstep u (m, 0)) = Nat.max m (fst (wid u)) /\ snd (fold_left wstep u (m, 0)) = snd (wid u).
Proof.
  induction u as [|x u IH] using rev_ind; intros m; [cbn; lia|].
  unfold wid in *. rewrite !fold_left_app. cbn [fold_left]. destruct (IH m) as [A B]. unfold wstep at 1 3 5 7. rewrite A, B.
  destruct (Ascii.eqb x NL); cbn [fst snd]; lia.
Qed.
Lemma wid_nl t : wid (t ++ [NL]) = (fst (wid t), 0).
Proof. rewrite wid_app. reflexivity. Qed.
Lemma bol_wid t : at_bol t <-> snd (wid t) = 0.
Proof.
  split.
  - intros [->|[t' ->]]; [reflexivity|]. rewrite wid_nl. reflexivity.
  - destruct t as [|x t _] using rev_ind; [left; reflexivity|]. rewrite wid_app. cbn [fold_left]. unfold wstep.
    destruct (Ascii.eqb_spec x NL) as [->|D]; [right; eauto|discriminate].
Qed.

Section S.
Variable broken : handle -> nat -> bool.
Variable fmt : text -> list arg -> option text.

(** what a write may leave, whether it fails or not *)
Lemma io_sent s h t s' ok : io broken s h t = (s', ok) ->
  mfh s' = mfh s /\ need s' = need s /\
  sent h s' = sent h s ++ match t with Some t => if ok then t else [] | None => [] end.
Proof.
  intros E. apply io_spec in E. destruct E as (M & N & _ & _ & _ & O). repeat split; auto.
  rewrite (sent_app h s _ s' O). f_equal. destruct t; [destruct ok|]; cbn; rewrite ?Nat.eqb_refl; cbn; rewrite ?app_nil_r; reflexivity.
Qed.
Lemma off_sent s h : mfh s = Some h -> mfh (fst (fh_set s None)) = None /\ sent h (fst (fh_set s None)) = sent h s.
Proof. intros E. rewrite (fh_none s h E). split; reflexivity. Qed.
Lemma wc_sent s h t : mfh s = Some h -> forall s', s' = write_char broken s t ->
  mfh s' = Some h /\ need s' = true /\ sent h s' = sent h s ++ t \/
  mfh s' = None /\ (sent h s' = sent h s ++ t \/ sent h s' = sent h s).
Proof.
  intros E s' ->. unfold write_char. rewrite E.
  destruct (io broken s h (Some t)) as [s1 ok1] eqn:I1. apply io_sent in I1. destruct I1 as (M1 & N1 & O1). rewrite E in M1.
  destruct ok1.
  - destruct (io broken s1 h None) as [s2 ok2] eqn:I2. apply io_sent in I2. destruct I2 as (M2 & N2 & O2). rewrite app_nil_r in O2.
    destruct ok2.
    + left. cbn. unfold sent in *. cbn. repeat split; congruence.
    + right. destruct (off_sent s2 h) as [A B]; [congruence|]. split; [exact A|]. left. congruence.
  - right. rewrite app_nil_r in O1. destruct (off_sent s1 h) as [A B]; [congruence|]. split; [exact A|]. right. congruence.
Qed.
Lemma wl_sent s h t : mfh s = Some h -> forall s', s' = write_line broken s t ->
  forall nl, nl = (if need s then [NL] else []) ->
  mfh s' = Some h /\ need s' = false /\ sent h s' = sent h s ++ nl ++ t ++ [NL] \/
  mfh s' = None /\ (sent h s' = sent h s ++ nl ++ t ++ [NL] \/ sent h s' = sent h s ++ nl \/ sent h s' = sent h s).
Proof.
  intros E s' -> nl Enl. unfold write_line. rewrite E.
  assert (G : forall s1, mfh s1 = Some h -> need s1 = false -> sent h s1 = sent h s ++ nl ->
    forall s', s' = (let (s2, ok2) := io broken s1 h (Some (t ++ [NL])) in
      if ok2 then let (s3, ok3) := io broken s2 h None in if ok3 then s3 else fst (fh_set s3 None)
      else fst (fh_set s2 None)) ->
    mfh s' = Some h /\ need s' = false /\ sent h s' = sent h s ++ nl ++ t ++ [NL] \/
    mfh s' = None /\ (sent h s' = sent h s ++ nl ++ t ++ [NL] \/ sent h s' = sent h s ++ nl \/ sent h s' = sent h s)).
  { intros s1 M1 N1 O1 s' ->.
    destruct (io broken s1 h (Some (t ++ [NL]))) as [s2 ok2] eqn:I2. apply io_sent in I2. destruct I2 as (M2 & N2 & O2).
    destruct ok2.
    - destruct (io broken s2 h None) as [s3 ok3] eqn:I3. apply io_sent in I3. destruct I3 as (M3 & N3 & O3). rewrite app_nil_r in O3.
      assert (O : sent h s3 = sent h s ++ nl ++ t ++ [NL]) by (rewrite O3, O2, O1, <- app_assoc; reflexivity).
      destruct ok3; [left; repeat split; congruence|]. right. destruct (off_sent s3 h) as [A B]; [congruence|]. split; [exact A|]. left. congruence.
    - right. rewrite app_nil_r in O2. destruct (off_sent s2 h) as [A B]; [congruence|]. split; [exact A|]. right. left. congruence. }
  destruct (need s) eqn:N; subst nl.
  - destruct (io broken s h (Some [NL])) as [s1 ok1] eqn:I1. apply io_sent in I1. destruct I1 as (M1 & N1 & O1). destruct ok1.
    + apply (G (set_need s1 false)); [cbn; congruence|reflexivity|exact O1|reflexivity].
    + right. rewrite app_nil_r in O1. destruct (off_sent s1 h) as [A B]; [congruence|]. split; [exact A|]. right. right. congruence.
  - apply (G s); auto. rewrite app_nil_r. reflexivity.
Qed.

Lemma msg_nl s : fst (msg_call broken fmt s [AStr []]) = write_char broken s [NL].
Proof. reflexivity. Qed.

(** the invariant *)
Definition p_inv (n : nat) (h : handle) (sk : mst * nat) : Prop :=
  fst (wid (sent h (fst sk))) <= n /\
  (mfh (fst sk) = None \/
   mfh (fst sk) = Some h /\ snd (wid (sent h (fst sk))) <= snd sk /\ snd sk < maxLineLength /\
   (need (fst sk) = false -> snd (wid (sent h (fst sk))) = 0)).

Lemma inv_nl n h s k : p_inv n h (s, k) -> forall k', k' < maxLineLength -> p_inv n h (write_char broken s [NL], k').
Proof.
  intros [W C] k' K. cbn [fst snd] in *. destruct C as [E|(E & T & L & B)].
  - rewrite wc_none by exact E. split; auto.
  - destruct (wc_sent s h [NL] E _ eq_refl) as [(M & N & O)|(M & [O|O])]; unfold p_inv; cbn [fst snd]; rewrite O, ?wid_nl; cbn [fst snd].
    + split; [exact W|]. right. repeat split; auto; lia.
    + split; auto.
    + split; auto.
Qed.
Lemma inv_line n h s k t : narrow n t -> p_inv n h (s, k) -> p_inv n h (write_line broken s t, k).
Proof.
  intros NT [W C]. cbn [fst snd] in *. destruct C as [E|(E & T & L & B)].
  - rewrite wl_none by exact E. split; auto.
  - apply wid_narrow in NT.
    assert (W1 : wid (sent h s ++ (if need s then [NL] else [])) = (fst (wid (sent h s)), 0)).
    { destruct (need s); [apply wid_nl|]. rewrite app_nil_r. specialize (B eq_refl). destruct (wid (sent h s)); cbn in *. congruence. }
    assert (W2 : wid (sent h s ++ (if need s then [NL] else []) ++ t ++ [NL]) = (Nat.max (fst (wid (sent h s))) (fst (wid t)), 0)).
    { rewrite !app_assoc, wid_nl, wid_app, W1. destruct (wid_bol t (fst (wid (sent h s)))) as [-> _]. reflexivity. }
    destruct (wl_sent s h t E _ eq_refl _ eq_refl) as [(M & N & O)|(M & [O|[O|O]])]; unfold p_inv; cbn [fst snd];
      rewrite O, ?W1, ?W2; cbn [fst snd].
    + split; [lia|]. right. repeat split; auto; lia.
    + split; [lia|left; exact M].
    + split; [lia|left; exact M].
    + split; [lia|left; exact M].
Qed.
Lemma inv_step n h sk op : maxLineLength <= n -> p_tame n broken fmt op -> p_inv n h sk -> p_inv n h (p_step broken fmt sk op).
Proof.
  intros ML T I. destruct sk as [s k]. destruct op as [c| |op]; cbn [p_step progress_char fst snd].
  - cbn [p_tame] in T. cbv zeta. rewrite msg_nl.
    assert (J : p_inv n h (write_char broken s [c], S k) \/ k = maxLineLength - 1 /\
      (fst (wid (sent h (write_char broken s [c]))) <= n /\ (mfh (write_char broken s [c]) = None \/ mfh (write_char broken s [c]) = Some h))).
    { destruct I as [W C]. cbn [fst snd] in *. destruct C as [E|(E & T1 & L & B)].
      - rewrite wc_none by exact E. left. split; auto.
      - destruct (Ascii.eqb_spec c NL) as [D|D]; [contradiction|].
        assert (WC : wid (sent h s ++ [c]) = (Nat.max (fst (wid (sent h s))) (S (snd (wid (sent h s)))), S (snd (wid (sent h s))))).
        { rewrite wid_app. cbn [fold_left]. unfold wstep. destruct (Ascii.eqb_spec c NL); [contradiction|reflexivity]. }
        destruct (wc_sent s h [c] E _ eq_refl) as [(M & N & O)|(M & [O|O])]; rewrite ?O, ?WC; cbn [fst snd].
        + destruct (Nat.eq_dec k (maxLineLength - 1)) as [K|K].
          * right. split; [exact K|]. split; [lia|auto].
          * left. unfold p_inv. cbn [fst snd]. rewrite O, WC. cbn [fst snd]. split; [lia|]. right. repeat split; auto; try lia. rewrite N. discriminate.
        + left. unfold p_inv. cbn [fst snd]. rewrite O, WC. cbn [fst snd]. split; [lia|auto].
        + left. unfold p_inv. cbn [fst snd]. rewrite O. split; [lia|auto]. }
    destruct (Nat.ltb_spec (maxLineLength - 1) (S k)) as [K|K].
    + assert (J' : fst (wid (sent h (write_char broken s [c]))) <= n /\ (mfh (write_char broken s [c]) = None \/ mfh (write_char broken s [c]) = Some h)).
      { destruct J as [[W C]|[_ J]]; [|exact J]. cbn [fst snd] in *. split; [exact W|]. intuition. }
      clear J. destruct J' as [W [E|E]].
      * rewrite (wc_none broken (write_char broken s [c])) by exact E. split; auto.
      * destruct (wc_sent _ h [NL] E _ eq_refl) as [(M & N & O)|(M & [O|O])]; unfold p_inv; cbn [fst snd]; rewrite O, ?wid_nl; cbn [fst snd]; split; auto.
        right. repeat split; auto. unfold maxLineLength. lia.
    + destruct J as [J|[J _]]; [exact J|lia].
  - rewrite msg_nl. destruct (Nat.ltb_spec 0 k) as [K|K].
    + apply (inv_nl n h s k I). unfold maxLineLength. lia.
    + replace 0 with k by lia. exact I.
  - cbn [p_tame] in T. destruct (T s) as (s0 & [->| ->] & [->|[->|(t & NT & ->)]]).
    + exact I.
    + destruct I as [W C]. cbn [fst snd] in *. destruct C as [E|C]; [rewrite wc_none by exact E; split; auto|].
      apply (inv_nl n h s k); [split; auto|]. intuition.
    + apply inv_line; auto.
    + exact I.
    + assert (I' : p_inv n h (fst (line_written s), k)) by exact I.
      destruct I' as [W C]. cbn [fst snd] in *. destruct C as [E|C]; [rewrite wc_none by exact E; split; auto|].
      apply (inv_nl n h (fst (line_written s)) k); [split; auto|]. intuition.
    + apply inv_line; auto.
Qed.
Lemma inv_exec n h ops : maxLineLength <= n -> Forall (p_tame n broken fmt) ops -> forall sk, p_inv n h sk -> p_inv n h (p_exec broken fmt sk ops).
Proof.
  intros ML. induction ops as [|op ops IH]; intros F sk I; [exact I|]. inversion F; subst. cbn [p_exec]. apply IH; auto. apply inv_step; auto.
Qed.
Lemma inv_start n h : p_inv n h (p_start broken fmt h).
Proof. unfold p_inv, p_start. cbn. split; [lia|]. right. unfold maxLineLength. repeat split; lia. Qed.
Lemma p_exec_app o1 o2 : forall sk, p_exec broken fmt sk (o1 ++ o2) = p_exec broken fmt (p_exec broken fmt sk o1) o2.
Proof. induction o1 as [|op o1 IH]; intros sk; [reflexivity|]. apply IH. Qed.
End S.

(** ** C86: progress symbols *)
(** Whatever lines are written in between, and whether or not the handle fails at
    some time, no line written has more than 120 characters (if none of the
    messages' lines has) *)
Theorem C86_line_length broken fmt h ops : Forall (p_tame 120 broken fmt) ops ->
  narrow 120 (sent h (fst (p_exec broken fmt (p_start broken fmt h) ops))).
Proof.
  intros F. apply wid_narrow. apply (inv_exec broken fmt 120 h ops); [unfold maxLineLength; lia|exact F|apply inv_start].
Qed.

(** A call without a symbol leaves one at the beginning of a line *)
Theorem C86_reset broken fmt h ops : Forall (p_tame 120 broken fmt) ops ->
  forall s k, (s, k) = p_exec broken fmt (p_start broken fmt h) (ops ++ [PReset]) -> mfh s = Some h ->
  at_bol (sent h s) /\ k = 0.
Proof.
  intros F s k E M. rewrite p_exec_app in E.
  pose proof (inv_exec broken fmt 120 h ops ltac:(unfold maxLineLength; lia) F _ (inv_start broken fmt 120 h)) as I.
  destruct (p_exec broken fmt (p_start broken fmt h) ops) as [s0 k0]. cbn [p_exec p_step progress_char fst snd] in E.
  rewrite msg_nl in E. assert (Es : s = fst (if 0 <? k0 then write_char broken s0 [NL] else s0, 0)) by (rewrite <- E; reflexivity).
  assert (Ek : k = 0) by (change k with (snd (s, k)); rewrite E; reflexivity). cbn [fst] in Es. clear E. subst s k. split; [|reflexivity].
  destruct I as [_ C]. cbn [fst snd] in C.
  destruct (Nat.ltb_spec 0 k0) as [K|K].
  - destruct C as [E|(E & _)]; [rewrite wc_none in M by exact E; congruence|].
    destruct (wc_sent broken s0 h [NL] E _ eq_refl) as [(_ & _ & ->)|(X & _)]; [right; eauto|congruence].
  - apply bol_wid. destruct C as [E|(E & T & _)]; [congruence|lia].
Qed.

(** Symbols alone fill lines of 120 exactly, in order, nothing lost *)
Theorem C86_fill fmt h cs : Forall (fun c => c <> NL) cs ->
  exists lines rest, cs = concat lines ++ rest /\ Forall (fun l => length l = 120) lines /\ length rest < 120 /\
    forall s k, (s, k) = p_exec (fun _ _ => false) fmt (p_start (fun _ _ => false) fmt h) (map PSym cs) ->
    sent h s = concat (map (fun l => l ++ [NL]) lines) ++ rest /\ mfh s = Some h.
Proof.
  set (broken := fun (_ : handle) (_ : nat) => false). intros F.
  assert (OK : forall s t, mfh s = Some h -> closed s = [] ->
    mfh (write_char broken s t) = Some h /\ closed (write_char broken s t) = [] /\ sent h (write_char broken s t) = sent h s ++ t).
  { intros s t E C. unfold write_char. rewrite E. unfold io, io_ok. rewrite C. cbn. rewrite ?C. cbn. repeat split; auto.
    unfold sent. cbn. rewrite filter_app, map_app, concat_app. cbn. rewrite ?Nat.eqb_refl. cbn. rewrite ?app_nil_r. reflexivity. }
  enough (H : exists lines rest, cs = concat lines ++ rest /\ Forall (fun l => length l = 120) lines /\ length rest < 120 /\
    exists s, p_exec broken fmt (p_start broken fmt h) (map PSym cs) = (s, length rest) /\
    sent h s = concat (map (fun l => l ++ [NL]) lines) ++ rest /\ mfh s = Some h /\ closed s = []).
  { destruct H as (lines & rest & A & B & C & s0 & E & O & M & _). exists lines, rest. repeat split; auto;
    rewrite E in H; injection H as -> ->; auto. }
  induction cs as [|c cs IH] using rev_ind.
  { exists [], []. cbn. repeat split; auto; [lia|]. eexists. repeat split. }
  apply Forall_app in F. destruct F as [F _].
  destruct (IH F) as (lines & rest & A & B & C & s & E & O & M & CL).
  rewrite map_app, p_exec_app, E. cbn [map p_exec p_step progress_char fst snd]. cbv zeta.
  destruct (OK s [c] M CL) as (M1 & C1 & O1). rewrite msg_nl.
  destruct (OK _ [NL] M1 C1) as (M2 & C2 & O2).
  assert (ML : maxLineLength = 120) by reflexivity.
  destruct (Nat.ltb_spec (maxLineLength - 1) (S (length rest))) as [K|K].
  - exists (lines ++ [rest ++ [c]]), []. split; [rewrite concat_app, A; cbn; rewrite !app_nil_r, <- app_assoc; reflexivity|].
    split; [apply Forall_app; split; [exact B|constructor; [rewrite app_length; cbn; lia|constructor]]|].
    split; [cbn; lia|]. eexists. split; [reflexivity|]. split; [|auto].
    rewrite O2, O1, O, map_app, concat_app. cbn. rewrite !app_nil_r, <- !app_assoc. reflexivity.
  - exists lines, (rest ++ [c]). split; [rewrite A, app_assoc; reflexivity|]. split; [exact B|]. rewrite app_length. cbn [length].
    split; [lia|]. eexists. rewrite Nat.add_1_r. split; [reflexivity|]. split; [|auto]. rewrite O1, O, <- app_assoc. reflexivity.
Qed.

(** Another message does not reset the count: the line after it may be broken after
    any number of symbols *)
Theorem C86_count_after_message_refuted :
  ~ (forall fmt h cs t c s k, Forall (fun c => c <> NL) cs -> narrow 120 t -> 2 <= length t -> c <> NL ->
      (s, k) = p_exec (fun _ _ => false) fmt (p_start (fun _ _ => false) fmt h) (map PSym cs ++ [PMsg (MLine t); PSym c]) ->
      ~ at_bol (sent h s)).
Proof.
  intros H. set (a := "a"%char). set (E := p_exec (fun _ _ => false) (fun _ _ => None) (p_start (fun _ _ => false) (fun _ _ => None) 1)
    (map PSym (repeat a 119) ++ [PMsg (MLine [a; a]); PSym a])).
  apply (H (fun _ _ => None) 1 (repeat a 119) [a; a] a (fst E) (snd E)).
  - apply Forall_forall. intros x I. apply repeat_spec in I. subst. discriminate.
  - apply wid_narrow. vm_compute. lia.
  - cbn. lia.
  - discriminate.
  - rewrite <- surjective_pairing. reflexivity.
  - apply bol_wid. vm_compute. reflexivity.
Qed.
(** ... and a message after a full line comes after a blank one *)
Theorem C86_blank_line_refuted :
  ~ (forall fmt h cs t s k, Forall (fun c => c <> NL) cs -> 2 <= length t -> ~ In NL t ->
      (s, k) = p_exec (fun _ _ => false) fmt (p_start (fun _ _ => false) fmt h) (map PSym cs ++ [PMsg (MCall [AStr t])]) ->
      forall a b, sent h s <> a ++ [NL; NL] ++ b).
Proof.
  intros H. set (a := "a"%char). set (E := p_exec (fun _ _ => false) (fun _ _ => None) (p_start (fun _ _ => false) (fun _ _ => None) 1)
    (map PSym (repeat a 120) ++ [PMsg (MCall [AStr [a; a]])])).
  apply (H (fun _ _ => None) 1 (repeat a 120) [a; a] (fst E) (snd E)) with (a := repeat a 120) (b := [a; a; NL]).
  - apply Forall_forall. intros x I. apply repeat_spec in I. subst. discriminate.
  - cbn. lia.
  - cbn. intros [X|[X|[]]]; discriminate.
  - rewrite <- surjective_pairing. reflexivity.
  - vm_compute. reflexivity.
Qed.

Lemma line_op_text broken fmt t : narrow 120 t -> 2 <= length t -> line_op 120 broken fmt (MCall [AStr t]).
Proof.
  intros N L s. exists s. split; [auto|]. right. right. exists t. split; [exact N|]. cbn [m_step]. rewrite call_rest. cbn [is_first]. unfold rest_call.
  replace (falsy (AStr t)) with false by (destruct t; [cbn in L; lia|reflexivity]).
  replace (is_dash (AStr t)) with false.
  2:{ symmetry. apply not_true_is_false. intros K. apply is_dash_str in K. subst. cbn in L. lia. }
  cbv zeta. replace (length t =? 1) with false by (symmetry; apply Nat.eqb_neq; lia). reflexivity.
Qed.
Example C86_nonvacuous :
  let ops := map PSym (repeat "*"%char 130) ++ [PMsg (MCall [AStr (repeat "x"%char 100)]); PMsg MWritten; PSym "!"%char] in
  Forall (p_tame 120 (fun _ n => n =? 300) (fun _ _ => None)) ops /\
  option_map (fun _ => 0) (mfh (fst (p_exec (fun _ n => n =? 300) (fun _ _ => None) (p_start (fun _ n => n =? 300) (fun _ _ => None) 2) ops))) = Some 0 /\
  length (sent 2 (fst (p_exec (fun _ n => n =? 300) (fun _ _ => None) (p_start (fun _ n => n =? 300) (fun _ _ => None) 2) ops))) = 234.
Proof.
  cbv zeta. split; [|split; vm_compute; reflexivity]. apply Forall_app. split.
  - apply Forall_forall. intros x I. apply in_map_iff in I. destruct I as (c & <- & I). apply repeat_spec in I. subst. discriminate.
  - repeat constructor.
    + cbn [p_tame]. apply line_op_text; [|cbn; lia]. apply wid_narrow. vm_compute. lia.
    + intros s. exists (fst (line_written s)). split; [auto|]. left. reflexivity.
    + cbn. discriminate.
Qed.

Print Assumptions C86_line_length.
Print Assumptions C86_reset.
Print Assumptions C86_fill.
Print Assumptions C86_count_after_message_refuted.
Print Assumptions C86_blank_line_refuted.

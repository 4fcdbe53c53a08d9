(** * Properties of the message writer (C67-C69). *)
From Coq Require Import Bool Arith ZArith Ascii String List Lia.
From Verif Require Import Flt Py MsgModel.
Import ListNotations.
Local Open Scope nat_scope.

(** ** Vocabulary of the statements *)
(** all that was written to a handle *)
Definition sent (h : handle) (s : mst) : text := concat (map snd (filter (fun e => fst e =? h) (out s))).
(** at the beginning of a line *)
Definition at_bol (t : text) : Prop := t = [] \/ exists t', t = t' ++ [NL].
(** an operation that does not set the handle *)
Definition no_switch (op : mop) : Prop :=
  match op with MCall (AHandle _ :: _) | MCall (ANone :: _) | MCall (ABool _ :: _) => False | _ => True end.
(** [s'] is [s] with just a line of its own written to [h] (after a line break if
    a line was begun), nothing else *)
Definition adds_line (h : handle) (s s' : mst) (line : text) : Prop :=
  exists nl, (nl = [] \/ nl = [NL]) /\ at_bol (sent h s ++ nl) /\ sent h s' = sent h s ++ nl ++ line ++ [NL] /\
    forall h', h' <> h -> sent h' s' = sent h' s.

(** ** Lemmas *)
Lemma sent_app h s o : forall s', out s' = out s ++ o -> sent h s' = sent h s ++ concat (map snd (filter (fun e => fst e =? h) o)).
Proof. intros s' E. unfold sent. rewrite E, filter_app, map_app, concat_app. reflexivity. Qed.

Section S.
Variable broken : handle -> nat -> bool.
Variable fmt : text -> list arg -> option text.

Lemma fh_none s h : mfh s = Some h ->
  fst (fh_set s None) = mkMst None (need s) (lwas s) (out s) (if h =? stdout then closed s else closed s ++ [h]) (ios s).
Proof. intros E. unfold fh_set. rewrite E. cbn. reflexivity. Qed.

Lemma io_spec s h t s' ok : io broken s h t = (s', ok) ->
  mfh s' = mfh s /\ need s' = need s /\ lwas s' = lwas s /\ closed s' = closed s /\ (ok = true -> ~ In h (closed s)) /\
  out s' = out s ++ match t with Some t => if ok then [(h, t)] else [] | None => [] end.
Proof.
  unfold io. intros E. injection E as <- <-. cbn. repeat split.
  - intros K I. revert K. unfold io_ok. replace (existsb (Nat.eqb h) (closed s)) with true; [discriminate|].
    symmetry. apply existsb_exists. exists h. split; [exact I|apply Nat.eqb_refl].
  - destruct t; [|rewrite app_nil_r; reflexivity]. destruct (io_ok broken s h); [reflexivity|rewrite app_nil_r; reflexivity].
Qed.
Lemma off_spec s0 s h o : mfh s = Some h -> lwas s = lwas s0 -> closed s = closed s0 -> out s = out s0 ++ o ->
  Forall (fun e => fst e = h) o -> (In h (closed s0) -> o = []) ->
  lwas (fst (fh_set s None)) = lwas s0 /\
  mfh (fst (fh_set s None)) = None /\ closed (fst (fh_set s None)) = (if h =? stdout then closed s0 else closed s0 ++ [h]) /\
    exists o, out (fst (fh_set s None)) = out s0 ++ o /\ Forall (fun e => fst e = h) o /\ (In h (closed s0) -> o = []).
Proof. intros E L C O F I. rewrite (fh_none _ _ E). cbn. rewrite C. repeat split; auto. exists o. auto. Qed.

Lemma wl_spec s h t (E : mfh s = Some h) : forall s', s' = write_line broken s t ->
  lwas s' = lwas s /\
  ((mfh s' = Some h /\ need s' = false /\ closed s' = closed s /\ ~ In h (closed s) /\
    out s' = out s ++ (if need s then [(h, [NL])] else []) ++ [(h, t ++ [NL])]) \/
   (mfh s' = None /\ closed s' = (if h =? stdout then closed s else closed s ++ [h]) /\
    exists o, out s' = out s ++ o /\ Forall (fun e => fst e = h) o /\ (In h (closed s) -> o = []))).
Proof.
  intros s' ->. unfold write_line. rewrite E.
  assert (G : forall s1, mfh s1 = Some h -> need s1 = false -> lwas s1 = lwas s -> closed s1 = closed s -> forall o, out s1 = out s ++ o ->
    Forall (fun e => fst e = h) o -> (In h (closed s) -> o = []) -> forall s',
    s' = (let (s2, ok2) := io broken s1 h (Some (t ++ [NL])) in
      if ok2 then let (s3, ok3) := io broken s2 h None in if ok3 then s3 else fst (fh_set s3 None)
      else fst (fh_set s2 None)) ->
    lwas s' = lwas s /\
  ((mfh s' = Some h /\ need s' = false /\ closed s' = closed s /\ ~ In h (closed s) /\ out s' = out s ++ o ++ [(h, t ++ [NL])]) \/
   (mfh s' = None /\ closed s' = (if h =? stdout then closed s else closed s ++ [h]) /\
    exists o, out s' = out s ++ o /\ Forall (fun e => fst e = h) o /\ (In h (closed s) -> o = [])))).
  { intros s1 E1 N1 L1 C1 o O1 F1 I1 s' ->.
    destruct (io broken s1 h (Some (t ++ [NL]))) as [s2 ok2] eqn:I2. apply io_spec in I2. destruct I2 as (M2 & N2 & L2 & C2 & K2 & O2).
    destruct ok2.
    - destruct (io broken s2 h None) as [s3 ok3] eqn:I3. apply io_spec in I3. destruct I3 as (M3 & N3 & L3 & C3 & K3 & O3).
      rewrite app_nil_r in O3. assert (NI : ~ In h (closed s)) by (rewrite <- C1; auto).
      destruct ok3.
      + split; [congruence|left]. repeat split; try congruence. rewrite O3, O2, O1, <- app_assoc. reflexivity.
      + destruct (off_spec s s3 h (o ++ [(h, t ++ [NL])])) as [X Y]; try congruence.
        * rewrite O3, O2, O1, <- app_assoc. reflexivity.
        * apply Forall_app. auto.
        * split; [exact X|right; exact Y].
    - rewrite app_nil_r in O2. destruct (off_spec s s2 h o) as [X Y]; try congruence; auto. }
  destruct (need s) eqn:N.
  - destruct (io broken s h (Some [NL])) as [s1 ok1] eqn:I1. apply io_spec in I1. destruct I1 as (M1 & N1 & L1 & C1 & K1 & O1).
    destruct ok1.
    + apply (G (set_need s1 false)) with (o := [(h, [NL])]); cbn; auto; try congruence. intros I. destruct (K1 eq_refl I).
    + destruct (off_spec s s1 h []) as [X Y]; try congruence; auto.
  - apply (G s) with (o := []); auto. rewrite app_nil_r. reflexivity.
Qed.

Lemma wc_spec s h t (E : mfh s = Some h) : forall s', s' = write_char broken s t ->
  lwas s' = lwas s /\
  ((mfh s' = Some h /\ need s' = true /\ closed s' = closed s /\ ~ In h (closed s) /\ out s' = out s ++ [(h, t)]) \/
   (mfh s' = None /\ closed s' = (if h =? stdout then closed s else closed s ++ [h]) /\
    exists o, out s' = out s ++ o /\ Forall (fun e => fst e = h) o /\ (In h (closed s) -> o = []))).
Proof.
  intros s' ->. unfold write_char. rewrite E.
  destruct (io broken s h (Some t)) as [s1 ok1] eqn:I1. apply io_spec in I1. destruct I1 as (M1 & N1 & L1 & C1 & K1 & O1).
  destruct ok1.
  - destruct (io broken s1 h None) as [s3 ok3] eqn:I3. apply io_spec in I3. destruct I3 as (M3 & N3 & L3 & C3 & K3 & O3).
    rewrite app_nil_r in O3. destruct ok3.
    + cbn. split; [congruence|left]. repeat split; try congruence; auto.
    + destruct (off_spec s s3 h [(h, t)]) as [X Y]; try congruence; auto. intros I. destruct (K1 eq_refl I).
  - rewrite app_nil_r in O1. destruct (off_spec s s1 h []) as [X Y]; try congruence; auto. rewrite app_nil_r. auto.
Qed.

Lemma wl_none s t : mfh s = None -> write_line broken s t = s.
Proof. intros E. unfold write_line. rewrite E. reflexivity. Qed.
Lemma wc_none s t : mfh s = None -> write_char broken s t = s.
Proof. intros E. unfold write_char. rewrite E. reflexivity. Qed.

(** what a call does, as a sequence of basic steps *)
Inductive prim : mst -> mst -> Prop :=
| p_refl s : prim s s
| p_line s t s' : prim (write_line broken s t) s' -> prim s s'
| p_char s t s' : prim (write_char broken s t) s' -> prim s s'
| p_set s new s' : prim (fst (fh_set s new)) s' -> prim s s'
| p_read s s' : prim (fst (line_written s)) s' -> prim s s'.

Lemma prim_trans a b c : prim a b -> prim b c -> prim a c.
Proof. induction 1; intros H1; auto; [eapply p_line|eapply p_char|eapply p_set|eapply p_read]; eauto. Qed.

(** the part of a call after the first argument *)
Definition rest_call (s : mst) (fh : option handle) (args : list arg) : mst * res (option handle) :=
  match args with
  | [] => (s, Ok fh)
  | [a] =>
    if falsy a then let s := write_char broken s [NL] in (s, Ok (mfh s))
    else match a with
         | AStr t =>
           let t := if is_dash a then dashes true false else t in
           let s := if length t =? 1 then write_char broken s t else write_line broken s t in (s, Ok (mfh s))
         | _ => (s, Raise TypeError)
         end
  | _ =>
    match prefix_loop 2 args [] with
    | Raise e => (s, Raise e)
    | Ok (prefix, args) =>
      match args with
      | [] => (s, Raise IndexError)
      | AStr p :: rest =>
        let (suffix, rr) := suffix_loop (braces p) (rev rest) [] in
        match fmt p (rev rr) with
        | None => (s, Raise ValueError)
        | Some t => (write_line broken s (prefix ++ t ++ suffix), Ok fh)
        end
      | _ => (s, Raise TypeError)
      end
    end
  end.
Lemma call_rest s args :
  msg_call broken fmt s args =
  match args with
  | a :: r => if is_first a then rest_call (fst (fhset_arg broken s a)) (snd (fhset_arg broken s a)) r else rest_call s (mfh s) args
  | [] => rest_call s (mfh s) []
  end.
Proof.
  unfold msg_call, rest_call. destruct args as [|a r]; [reflexivity|].
  destruct (is_first a); [destruct (fhset_arg broken s a); reflexivity|reflexivity].
Qed.
Lemma rest_cases s fh args : (exists t, fst (rest_call s fh args) = write_line broken s t) \/
  (exists t, fst (rest_call s fh args) = write_char broken s t) \/ fst (rest_call s fh args) = s.
Proof.
  unfold rest_call. destruct args as [|a [|b r]]; [auto| |].
  - destruct (falsy a); [right; left; exists [NL]; reflexivity|]. destruct a as [h| |x|z|t|n]; try (right; right; reflexivity).
    cbv zeta. match goal with |- context [?n =? 1] => destruct (n =? 1) end; [right; left|left]; eexists; reflexivity.
  - destruct (prefix_loop 2 (a :: b :: r) []) as [[pre [|[h| |x|z|t|n] rest]]|e]; auto.
    destruct (suffix_loop (braces t) (rev rest) []) as [suf rr]. destruct (fmt t (rev rr)); [left; eexists; reflexivity|right; right; reflexivity].
Qed.
Lemma call_prim s args : prim s (fst (msg_call broken fmt s args)).
Proof.
  assert (R : forall s fh args, prim s (fst (rest_call s fh args))).
  { intros s0 fh a. destruct (rest_cases s0 fh a) as [[t ->]|[[t ->]| ->]]; [eapply p_line|eapply p_char|]; apply p_refl. }
  rewrite call_rest. destruct args as [|a r]; [apply R|]. destruct (is_first a); [|apply R].
  eapply prim_trans; [|apply R]. destruct a; cbn [fhset_arg]; try (eapply p_set; apply p_refl); eapply p_line; apply p_refl.
Qed.
Lemma step_prim s op : prim s (m_step broken fmt s op).
Proof. destruct op; cbn; [apply call_prim|eapply p_line|eapply p_char|eapply p_read]; apply p_refl. Qed.
Lemma exec_prim ops : forall s, prim s (m_exec broken fmt s ops).
Proof. induction ops as [|op ops IH]; intros s; [apply p_refl|]. cbn. eapply prim_trans; [apply step_prim|apply IH]. Qed.
Lemma exec_app o1 o2 : forall s, m_exec broken fmt s (o1 ++ o2) = m_exec broken fmt (m_exec broken fmt s o1) o2.
Proof. induction o1 as [|op o1 IH]; intros s; [reflexivity|]. apply IH. Qed.

(** one handle only *)
Definition single (h : handle) (s : mst) : Prop := mfh s = None \/ mfh s = Some h /\ (need s = false -> at_bol (sent h s)).

Lemma sent_same h o : Forall (fun e : handle * text => fst e = h) o -> filter (fun e => fst e =? h) o = o.
Proof. induction 1 as [|[a b] o E _ IH]; [reflexivity|]. cbn in *. subst. rewrite Nat.eqb_refl, IH. reflexivity. Qed.
Lemma sent_diff h h' o : h' <> h -> Forall (fun e : handle * text => fst e = h) o -> filter (fun e => fst e =? h') o = [].
Proof.
  intros D. induction 1 as [|[a b] o E _ IH]; [reflexivity|]. cbn in *. subst.
  replace (h =? h') with false by (symmetry; apply Nat.eqb_neq; auto). exact IH.
Qed.

Lemma wl_adds h s t : single h s -> mfh (write_line broken s t) = Some h -> adds_line h s (write_line broken s t) t /\ need (write_line broken s t) = false.
Proof.
  intros [E|[E N]] M. { rewrite wl_none in M by auto. congruence. }
  destruct (wl_spec s h t E _ eq_refl) as [_ [(_ & NF & _ & _ & O)|(X & _)]]; [|congruence]. split; [|exact NF].
  exists (if need s then [NL] else []). split; [destruct (need s); auto|]. split.
  - destruct (need s); [right; eauto|]. rewrite app_nil_r. auto.
  - split.
    + rewrite (sent_app h s _ _ O), sent_same; [|destruct (need s); repeat constructor].
      destruct (need s); cbn; rewrite app_nil_r; reflexivity.
    + intros h' D. rewrite (sent_app h' s _ _ O), (sent_diff h h'); [cbn; apply app_nil_r|auto|destruct (need s); repeat constructor].
Qed.

Lemma wl_single h s t : single h s -> single h (write_line broken s t).
Proof.
  intros [E|[E N]]. { rewrite wl_none by auto. left; auto. }
  destruct (wl_spec s h t E _ eq_refl) as [_ [(M & NF & _ & _ & O)|(X & _)]]; [|left; exact X].
  right. split; [exact M|]. intros _. right.
  destruct (wl_adds h s t) as [(nl & _ & _ & -> & _) _]; [right; auto|auto|]. exists (sent h s ++ nl ++ t). rewrite !app_assoc. reflexivity.
Qed.
Lemma wc_single h s t : single h s -> single h (write_char broken s t).
Proof.
  intros [E|[E N]]. { rewrite wc_none by auto. left; auto. }
  destruct (wc_spec s h t E _ eq_refl) as [_ [(M & NF & _ & _ & O)|(X & _)]]; [|left; exact X].
  right. split; [exact M|]. rewrite NF. discriminate.
Qed.
Lemma step_single h s op : no_switch op -> single h s -> single h (m_step broken fmt s op).
Proof.
  assert (R : forall s fh args, single h s -> single h (fst (rest_call s fh args))).
  { intros s0 fh a H. destruct (rest_cases s0 fh a) as [[t ->]|[[t ->]| ->]]; [apply wl_single|apply wc_single|]; auto. }
  intros NS H. destruct op as [args|t|t|]; cbn.
  - rewrite call_rest. destruct args as [|a r]; [apply R; auto|]. destruct (is_first a) eqn:F; [|apply R; auto].
    apply R. destruct a; cbn in NS, F; try easy. cbn. apply wl_single; auto.
  - apply wl_single; auto.
  - apply wc_single; auto.
  - exact H.
Qed.
Lemma exec_single h ops : forall s, Forall no_switch ops -> single h s -> single h (m_exec broken fmt s ops).
Proof. induction ops as [|op ops IH]; intros s F H; [exact H|]. inversion F; subst. cbn. apply IH; auto. apply step_single; auto. Qed.
Lemma start_single h ops : Forall no_switch ops -> single h (m_exec broken fmt m_init (MCall [AHandle h] :: ops)).
Proof.
  intros F. cbn [m_exec]. apply exec_single; auto. cbn [m_step]. rewrite call_rest. cbn. right. split; [reflexivity|]. intros _. left. reflexivity.
Qed.
End S.

Definition rule : text := repeat "-"%char 120.
(** what may come before the text, and what is written for it *)
Inductive lead : arg -> text -> Prop :=
| lead_blank z : (z <= 0)%Z -> lead (AInt z) [NL]
| lead_indent z : (0 < z)%Z -> lead (AInt z) (repeat " "%char (Z.to_nat z))
| lead_rule : lead (AStr ["-"%char]) ([NL] ++ rule ++ [NL]).
(** what may come after the text *)
Inductive trail : arg -> text -> Prop :=
| trail_blank z : z = (-1)%Z \/ z = 0%Z -> trail (AInt z) [NL]
| trail_rule : trail (AStr ["-"%char]) ([NL] ++ rule).
(** a text with n pairs of braces *)
Inductive fields : text -> nat -> Prop :=
| fields_none t : ~ In "{"%char t -> fields t 0
| fields_more t inner rest n : ~ In "{"%char t -> ~ In "{"%char inner -> ~ In "}"%char inner -> fields rest n ->
    fields (t ++ ["{"%char] ++ inner ++ ["}"%char] ++ rest) (S n).

Lemma braces_skip t : forall r, ~ In "{"%char t -> braces_from false (t ++ r) = braces_from false r.
Proof.
  induction t as [|c t IH]; intros r N; [reflexivity|]. cbn [app braces_from].
  destruct (Ascii.eqb_spec c "{"%char) as [->|D]; [destruct N; left; reflexivity|]. cbn [andb]. apply IH. intros I. apply N. right. exact I.
Qed.
Lemma braces_inner t : forall r, ~ In "{"%char t -> ~ In "}"%char t -> braces_from true (t ++ ["}"%char] ++ r) = S (braces_from false r).
Proof.
  induction t as [|c t IH]; intros r N M; [reflexivity|]. cbn [app braces_from].
  destruct (Ascii.eqb_spec c "{"%char) as [->|D]; [destruct N; left; reflexivity|].
  destruct (Ascii.eqb_spec c "}"%char) as [->|D']; [destruct M; left; reflexivity|]. cbn [andb]. apply IH; intros I; [apply N|apply M]; right; exact I.
Qed.
Lemma fields_braces p n : fields p n -> braces p = n.
Proof.
  unfold braces. induction 1 as [t N|t inner rest n N I1 I2 _ IH].
  - rewrite <- (app_nil_r t), braces_skip by auto. reflexivity.
  - rewrite braces_skip by auto. cbn [app braces_from]. cbn [Ascii.eqb Bool.eqb]. change (Ascii.eqb "{" "{") with true. cbn iota.
    rewrite <- IH. apply braces_inner; auto.
Qed.

Lemma is_dash_str t : is_dash (AStr t) = true <-> t = ["-"%char].
Proof. cbn. destruct (list_eq_dec ascii_dec t ["-"%char]); split; intros H; auto; discriminate. Qed.

Lemma prefix_one n a x r acc : lead a x -> prefix_loop (S n) (a :: r) acc = prefix_loop n r (acc ++ x).
Proof.
  intros L. destruct L as [z H|z H|]; cbn [prefix_loop int_of].
  - replace (Z.ltb 0 z) with false by (symmetry; apply Z.ltb_ge; lia). reflexivity.
  - replace (Z.ltb 0 z) with true by (symmetry; apply Z.ltb_lt; lia). reflexivity.
  - reflexivity.
Qed.
Lemma prefix_all pres xs p r : Forall2 lead pres xs -> length pres = 2 \/ length pres < 2 /\ p <> ["-"%char] ->
  prefix_loop 2 (pres ++ AStr p :: r) [] = Ok (concat xs, AStr p :: r).
Proof.
  assert (ST : forall n acc, p <> ["-"%char] -> prefix_loop n (AStr p :: r) acc = Ok (acc, AStr p :: r)).
  { intros [|n] acc D; [reflexivity|]. cbn [prefix_loop int_of]. destruct (is_dash (AStr p)) eqn:E; [|reflexivity].
    apply is_dash_str in E. contradiction. }
  intros F L. destruct F as [|a x pres xs H F]; [destruct L as [L|[_ L]]; [discriminate|apply (ST 2); exact L]|].
  cbn [app]. rewrite (prefix_one _ _ _ _ _ H). destruct F as [|b y pres xs H' F].
  - destruct L as [L|[_ L]]; [discriminate|]. cbn [app concat]. rewrite ST by exact L. rewrite app_nil_r. reflexivity.
  - cbn [app]. rewrite (prefix_one _ _ _ _ _ H'). destruct F as [|c w pres xs H'' F].
    + cbn [app prefix_loop concat]. rewrite app_nil_r. reflexivity.
    + cbn in L. destruct L as [L|[L _]]; lia.
Qed.
Lemma suffix_one n a x r acc : trail a x -> n <= length r -> suffix_loop n (a :: r) acc = suffix_loop n r (acc ++ x).
Proof.
  intros T L. cbn [suffix_loop]. replace (n <? length (a :: r)) with true by (symmetry; apply Nat.ltb_lt; cbn; lia).
  destruct T as [z H|]; [|reflexivity]. cbn [is_dash int_of]. destruct H as [->| ->]; reflexivity.
Qed.
Lemma suffix_stop n r acc : n = length r -> suffix_loop n r acc = (acc, r).
Proof. intros ->. destruct r as [|a r]; [reflexivity|]. cbn [suffix_loop]. rewrite Nat.ltb_irrefl. reflexivity. Qed.
Lemma suffix_all n sufs xs : Forall2 trail sufs xs -> forall r acc, n = length r ->
  suffix_loop n (sufs ++ r) acc = (acc ++ concat xs, r).
Proof.
  induction 1 as [|a x sufs xs H F IH]; intros r acc L.
  - cbn [app concat]. rewrite app_nil_r. apply suffix_stop. exact L.
  - cbn [app]. rewrite (suffix_one _ _ _ _ _ H) by (rewrite app_length; lia). rewrite IH by exact L. cbn [concat]. rewrite app_assoc. reflexivity.
Qed.
Lemma Forall2_rev' A B (R : A -> B -> Prop) l1 l2 : Forall2 R l1 l2 -> Forall2 R (rev l1) (rev l2).
Proof. induction 1; [constructor|]. cbn. apply Forall2_app; auto. Qed.

Section T.
Variable broken : handle -> nat -> bool.
Variable fmt : text -> list arg -> option text.

Lemma rest_format s fh pres xs p n vals sufs ys t :
  Forall2 lead pres xs -> length pres = 2 \/ length pres < 2 /\ p <> ["-"%char] ->
  fields p n -> length vals = n -> Forall2 trail sufs ys -> fmt p vals = Some t -> pres ++ vals ++ sufs <> [] ->
  rest_call broken fmt s fh (pres ++ AStr p :: vals ++ sufs) = (write_line broken s (concat xs ++ t ++ concat (rev ys)), Ok fh).
Proof.
  intros FP LP FD LV FS FM NE. unfold rest_call.
  destruct (pres ++ AStr p :: vals ++ sufs) as [|a [|b r]] eqn:E.
  { destruct pres; discriminate E. }
  { destruct pres as [|a' [|b' pres]]; [|discriminate E|discriminate E]. cbn in E. injection E as _ E2. apply app_eq_nil in E2. destruct E2 as [-> ->].
    destruct NE. reflexivity. }
  rewrite <- E. rewrite (prefix_all _ _ _ _ FP LP). rewrite (fields_braces _ _ FD), rev_app_distr.
  rewrite (suffix_all n (rev sufs) (rev ys)); [|apply Forall2_rev'; exact FS|rewrite rev_length; auto].
  rewrite rev_involutive, FM. reflexivity.
Qed.
End T.

(** ** C67: what is written *)
(** A text of two or more characters is written on a line of its own: nothing else
    is written, and it begins at the beginning of a line *)
Theorem C67_text broken fmt h ops t : Forall no_switch ops -> 2 <= length t ->
  forall s, s = m_exec broken fmt m_init (MCall [AHandle h] :: ops) -> mfh s = Some h ->
  forall s' r, msg_call broken fmt s [AStr t] = (s', r) ->
  (r = Ok (Some h) /\ mfh s' = Some h /\ adds_line h s s' t) \/ (r = Ok None /\ mfh s' = None).
Proof.
  intros F L s Es M s' r. pose proof (start_single broken fmt h ops F) as SI. rewrite <- Es in SI. clear Es F.
  rewrite call_rest. cbn [is_first]. unfold rest_call. intros E.
  replace (falsy (AStr t)) with false in E by (destruct t; [cbn in L; lia|reflexivity]).
  replace (is_dash (AStr t)) with false in E.
  2:{ symmetry. apply not_true_is_false. intros K. apply is_dash_str in K. subst. cbn in L. lia. }
  cbv zeta in E. replace (length t =? 1) with false in E by (symmetry; apply Nat.eqb_neq; lia).
  injection E as <- <-. destruct (wl_spec broken s h t M _ eq_refl) as [_ [(M' & _)|(M' & _)]]; rewrite M'; [left|right; auto].
  repeat split; auto. apply (wl_adds broken h s t SI M').
Qed.

(** With up to two arguments before it, one for each pair of braces after it, and
    any number of arguments to end with, the text is written with everything that
    goes with it: blank lines, indentation, rules.  Those to end with come in the
    opposite order. *)
Theorem C67_format broken fmt h ops pres xs p n vals sufs ys t : Forall no_switch ops ->
  Forall2 lead pres xs -> length pres = 2 \/ length pres < 2 /\ p <> ["-"%char] ->
  ~ In (hd ANone pres) [AInt 0; AInt 1] ->
  fields p n -> length vals = n -> Forall2 trail sufs ys -> fmt p vals = Some t -> pres ++ vals ++ sufs <> [] ->
  forall s, s = m_exec broken fmt m_init (MCall [AHandle h] :: ops) -> mfh s = Some h ->
  forall s' r, msg_call broken fmt s (pres ++ AStr p :: vals ++ sufs) = (s', r) ->
  r = Ok (Some h) /\ (mfh s' = None \/ mfh s' = Some h /\ adds_line h s s' (concat xs ++ t ++ concat (rev ys))).
Proof.
  intros F FP LP NF FD LV FS FM NE s Es M s' r. pose proof (start_single broken fmt h ops F) as SI. rewrite <- Es in SI. clear Es F.
  assert (C : msg_call broken fmt s (pres ++ AStr p :: vals ++ sufs) = rest_call broken fmt s (mfh s) (pres ++ AStr p :: vals ++ sufs)).
  { rewrite call_rest. destruct pres as [|a pres]; [reflexivity|]. cbn [app]. replace (is_first a) with false; [reflexivity|].
    inversion FP as [|a' x' l l' LA _]; subst. symmetry. destruct LA as [z H|z H|]; [| |reflexivity]; cbn [is_first];
    apply orb_false_iff; split; apply Z.eqb_neq; intros ->; apply NF; cbn; auto. }
  rewrite C, (rest_format broken fmt _ _ _ xs p n vals sufs ys t); auto. intros E. injection E as <- <-. rewrite M. split; [reflexivity|].
  destruct (wl_spec broken s h (concat xs ++ t ++ concat (rev ys)) M _ eq_refl) as [_ [(M' & _)|(M' & _)]]; [right|left; exact M'].
  split; [exact M'|]. apply (wl_adds broken h s _ SI M').
Qed.

(** Texts written one after the other are on consecutive lines *)
Theorem C67_consecutive broken fmt h ops t u : Forall no_switch ops -> 2 <= length t -> 2 <= length u ->
  forall s, s = m_exec broken fmt m_init (MCall [AHandle h] :: ops) ->
  forall s', s' = m_exec broken fmt s [MCall [AStr t]; MCall [AStr u]] -> mfh s' = Some h ->
  exists begun, at_bol begun /\ sent h s' = begun ++ t ++ [NL] ++ u ++ [NL].
Proof.
  intros F LT LU s Es s' Es' M'. pose proof (start_single broken fmt h ops F) as SI. rewrite <- Es in SI. clear Es F.
  assert (C : forall s x, 2 <= length x -> fst (msg_call broken fmt s [AStr x]) = write_line broken s x).
  { intros s0 x L. rewrite call_rest. cbn [is_first]. unfold rest_call.
    replace (falsy (AStr x)) with false by (destruct x; [cbn in L; lia|reflexivity]).
    replace (is_dash (AStr x)) with false.
    2:{ symmetry. apply not_true_is_false. intros K. apply is_dash_str in K. subst. cbn in L. lia. }
    cbv zeta. replace (length x =? 1) with false by (symmetry; apply Nat.eqb_neq; lia). reflexivity. }
  cbn [m_exec m_step] in Es'. rewrite !C in Es' by auto. subst s'.
  set (s1 := write_line broken s t) in *.
  assert (S1 : single h s1) by (apply wl_single; exact SI).
  destruct S1 as [X|[M1 _]]; [rewrite wl_none in M' by exact X; congruence|].
  destruct (wl_adds broken h s t SI M1) as [(nl & _ & B & O & _) N]. fold s1 in O, N.
  destruct (wl_spec broken s1 h u M1 _ eq_refl) as [_ [(_ & _ & _ & _ & O2)|(X & _)]]; [|congruence].
  exists (sent h s ++ nl). split; [exact B|]. rewrite (sent_app h s1 _ _ O2), O, N. cbn. rewrite Nat.eqb_refl. cbn.
  rewrite app_nil_r, <- !app_assoc. reflexivity.
Qed.

(** A leading 0 writes an empty line, and the rest is written as without it *)
Theorem C67_zero broken fmt h ops a r : Forall no_switch ops -> no_switch (MCall (a :: r)) -> a <> AInt 0 -> a <> AInt 1 ->
  forall s, s = m_exec broken fmt m_init (MCall [AHandle h] :: ops) -> mfh s = Some h ->
  exists s1, (mfh s1 = None \/ mfh s1 = Some h /\ adds_line h s s1 []) /\
    fst (msg_call broken fmt s (AInt 0 :: a :: r)) = fst (msg_call broken fmt s1 (a :: r)).
Proof.
  intros F NS N0 N1 s Es M. pose proof (start_single broken fmt h ops F) as SI. rewrite <- Es in SI. clear Es F.
  exists (write_line broken s []). split.
  - destruct (wl_spec broken s h [] M _ eq_refl) as [_ [(M' & _)|(M' & _)]]; [right|left; exact M'].
    split; [exact M'|]. apply (wl_adds broken h s _ SI M').
  - rewrite !call_rest. cbn [is_first Z.eqb orb fhset_arg fst snd Z.to_nat repeat].
    replace (is_first a) with false.
    2:{ symmetry. destruct a; cbn in NS |- *; try easy. apply orb_false_iff; split; apply Z.eqb_neq; intros ->; auto. }
    unfold rest_call. destruct r as [|b r].
    + destruct (falsy a); [reflexivity|]. destruct a; reflexivity.
    + destruct (prefix_loop 2 (a :: b :: r) []) as [[pre [|[h'| |x|z|t|n] rest]]|e]; try reflexivity.
      destruct (suffix_loop (braces t) (rev rest) []) as [suf rr]. destruct (fmt t (rev rr)); reflexivity.
Qed.

(** So 0 and -1 before a text are the same *)
Theorem C67_blank broken fmt h ops t : Forall no_switch ops -> 2 <= length t -> fmt t [] = Some t -> fields t 0 ->
  forall s, s = m_exec broken fmt m_init (MCall [AHandle h] :: ops) ->
  forall s1 s2, s1 = fst (msg_call broken fmt s [AInt 0; AStr t]) -> s2 = fst (msg_call broken fmt s [AInt (-1); AStr t]) ->
  mfh s1 = Some h -> mfh s2 = Some h -> sent h s1 = sent h s2.
Proof.
  intros F L FM FD s Es s1 s2 E1 E2 M1 M2. pose proof (start_single broken fmt h ops F) as SI. rewrite <- Es in SI. clear Es F.
  assert (ND : t <> ["-"%char]) by (intros ->; cbn in L; lia).
  rewrite call_rest in E1, E2. cbn [is_first Z.eqb orb] in E1, E2.
  cbn [fhset_arg fst snd Z.to_nat repeat] in E1.
  assert (LB : Forall2 lead [AInt (-1)] [[NL]]) by (apply Forall2_cons; [apply lead_blank; lia|apply Forall2_nil]).
  change [AInt (-1); AStr t] with ([AInt (-1)] ++ AStr t :: [] ++ []) in E2.
  rewrite (rest_format broken fmt s (mfh s) [AInt (-1)] [[NL]] t 0 [] [] [] t) in E2; [|exact LB|right; cbn; auto|exact FD|reflexivity|constructor|exact FM|discriminate].
  cbn in E2. rewrite app_nil_r in E2.
  unfold rest_call in E1. replace (falsy (AStr t)) with false in E1 by (destruct t; [cbn in L; lia|reflexivity]).
  replace (is_dash (AStr t)) with false in E1 by (symmetry; apply not_true_is_false; intros K; apply is_dash_str in K; auto).
  cbv zeta in E1. replace (length t =? 1) with false in E1 by (symmetry; apply Nat.eqb_neq; lia). cbn [fst] in E1.
  remember (write_line broken s []) as s0 eqn:E0.
  destruct SI as [X|[M _]]; [subst s2; rewrite wl_none in M2 by exact X; congruence|].
  destruct (wl_spec broken s h [] M _ E0) as [_ [(M0 & N0 & _ & _ & O0)|(X & _)]].
  2:{ subst s1. rewrite wl_none in M1 by exact X. congruence. }
  destruct (wl_spec broken s0 h t M0 _ E1) as [_ [(_ & _ & _ & _ & O1)|(X & _)]]; [|congruence].
  destruct (wl_spec broken s h (NL :: t) M _ E2) as [_ [(_ & _ & _ & _ & O2)|(X & _)]]; [|congruence].
  rewrite (sent_app h s0 _ _ O1), (sent_app h s _ _ O0), (sent_app h s _ _ O2), N0.
  destruct (need s); cbn; rewrite !Nat.eqb_refl; cbn; rewrite ?app_nil_r, <- ?app_assoc; reflexivity.
Qed.

(** Concrete: no failure, a formatter that puts in "v" for the braces *)
Definition fine (h : handle) (n : nat) : bool := false.
Definition str (s : string) : text := list_ascii_of_string s.
Fixpoint fill_v (t : text) : text :=
  match t with "{"%char :: "}"%char :: t => "v"%char :: fill_v t | c :: t => c :: fill_v t | [] => [] end.
Definition fmt_v (t : text) (vs : list arg) : option text := if length vs <? braces t then None else Some (fill_v t).
Example C67_ex_text :
  let s := m_exec fine fmt_v m_init [MCall [AHandle 1]; MCall [AStr (str "*")]] in
  let (s', r) := msg_call fine fmt_v s [AStr (str "hello")] in
  r = Ok (Some 1) /\ sent 1 s = str "*" /\ sent 1 s' = str "*" ++ [NL] ++ str "hello" ++ [NL].
Proof. vm_compute. auto. Qed.
Example C67_ex_format :
  let s := m_exec fine fmt_v m_init [MCall [AHandle 1]] in
  let (s', r) := msg_call fine fmt_v s [AInt (-1); AInt 2; AStr (str "a {} b {}."); AOther 1; AInt 0; AStr (str "-"); AInt 0] in
  r = Ok (Some 1) /\ sent 1 s' = [NL] ++ str "  a v b v." ++ [NL; NL] ++ repeat "-"%char 120 ++ [NL].
Proof. vm_compute. auto. Qed.
Example C67_ex_fields : fields (str "a {} b {}.") 2.
Proof.
  change (str "a {} b {}.") with (str "a " ++ ["{"%char] ++ [] ++ ["}"%char] ++ str " b " ++ ["{"%char] ++ [] ++ ["}"%char] ++ str ".").
  repeat (apply fields_more; [cbn; intuition discriminate|cbn; intuition discriminate|cbn; intuition discriminate|]).
  apply fields_none. cbn. intuition discriminate.
Qed.
Example C67_ex_consecutive :
  sent 1 (m_exec fine fmt_v m_init [MCall [AHandle 1]; MCall [AStr (str ".")]; MCall [AStr (str "ab")]; MCall [AStr (str "cd")]])
  = str "." ++ [NL] ++ str "ab" ++ [NL] ++ str "cd" ++ [NL].
Proof. vm_compute. auto. Qed.
Example C67_ex_blank :
  let s := m_exec fine fmt_v m_init [MCall [AHandle 1]; MCall [AStr (str ".")]] in
  sent 1 (fst (msg_call fine fmt_v s [AInt 0; AStr (str "ab")])) = str "." ++ [NL; NL] ++ str "ab" ++ [NL] /\
  sent 1 (fst (msg_call fine fmt_v s [AInt (-1); AStr (str "ab")])) = str "." ++ [NL; NL] ++ str "ab" ++ [NL].
Proof. vm_compute. auto. Qed.

(** Not so for a text of one character: after 0 it is written without a line break *)
Theorem C67_blank_refuted : ~ forall t s, mfh s = Some 1 -> t <> [] -> fmt_v t [] = Some t ->
  sent 1 (fst (msg_call fine fmt_v s [AInt 0; AStr t])) = sent 1 (fst (msg_call fine fmt_v s [AInt (-1); AStr t])).
Proof.
  intros H. specialize (H (str "x") (m_exec fine fmt_v m_init [MCall [AHandle 1]]) eq_refl).
  assert (E := H ltac:(discriminate) ltac:(reflexivity)). vm_compute in E. discriminate E.
Qed.
(** Nor if handles are switched: the line break due to one handle is written to the
    other, and the line on the first is not begun at its beginning *)
Theorem C67_switch_refuted : ~ forall ops h t s', s' = m_exec fine fmt_v m_init (ops ++ [MCall [AHandle h]; MCall [AStr t]]) -> 2 <= length t ->
  exists begun, at_bol begun /\ sent h s' = begun ++ t ++ [NL].
Proof.
  intros H. specialize (H [MCall [ABool true]; MCall [AStr (str ".")]; MCall [AHandle 1]; MCall [AStr (str "ab")]] stdout (str "cd") _ eq_refl).
  destruct H as (b & [->|[b' ->]] & E); [cbn; lia|vm_compute in E; discriminate E|].
  destruct b' as [|c b']; [vm_compute in E; discriminate E|].
  apply (f_equal (@length ascii)) in E. rewrite !app_length in E. cbn [length] in E.
  match type of E with ?l = _ => let v := eval vm_compute in l in change l with v in E end. cbn in E. lia.
Qed.

(** ** C68: handles *)
Section H.
Variable broken : handle -> nat -> bool.

Lemma fh_set_closed s new h : In h (closed (fst (fh_set s new))) -> In h (closed s) \/ mfh s = Some h /\ h <> stdout.
Proof.
  unfold fh_set. destruct (opt_eqb new (mfh s)); [auto|]. cbn. destruct (mfh s) as [k|]; [|auto].
  destruct (Nat.eqb_spec k stdout); [auto|]. intros I. apply in_app_or in I. destruct I as [I|[->|[]]]; auto.
Qed.
Lemma fh_set_keeps s new h : In h (closed s) -> In h (closed (fst (fh_set s new))).
Proof.
  unfold fh_set. destruct (opt_eqb new (mfh s)); [auto|]. cbn. destruct (mfh s) as [k|]; [|auto].
  destruct (k =? stdout); [auto|]. intros I. apply in_or_app. auto.
Qed.
Lemma fh_set_mfh s new : mfh (fst (fh_set s new)) = new.
Proof.
  unfold fh_set. destruct (opt_eqb new (mfh s)) eqn:E; [|reflexivity]. cbn. destruct new as [x|], (mfh s) as [y|]; cbn in E; try discriminate; auto.
  apply Nat.eqb_eq in E. congruence.
Qed.
Lemma fh_set_ret s new : snd (fh_set s new) = mfh s.
Proof.
  unfold fh_set. destruct (opt_eqb new (mfh s)) eqn:E; [|reflexivity]. cbn. destruct new as [x|], (mfh s) as [y|]; cbn in E; try discriminate; auto.
  apply Nat.eqb_eq in E. congruence.
Qed.
Lemma fh_set_out s new : out (fst (fh_set s new)) = out s /\ lwas (fst (fh_set s new)) = lwas s.
Proof. unfold fh_set. destruct (opt_eqb new (mfh s)); split; reflexivity. Qed.
Lemma fh_set_gone s new h : mfh s = Some h -> h <> stdout -> mfh (fst (fh_set s new)) = Some h \/ In h (closed (fst (fh_set s new))).
Proof.
  intros E D. unfold fh_set. destruct (opt_eqb new (mfh s)); [left; exact E|]. cbn. rewrite E.
  destruct (Nat.eqb_spec h stdout) as [|_]; [contradiction|]. right. apply in_or_app. right. left. reflexivity.
Qed.

Lemma line_or_char s s' : (exists t, s' = write_line broken s t) \/ (exists t, s' = write_char broken s t) ->
  s' = s \/ exists h, mfh s = Some h /\ lwas s' = lwas s /\
   (mfh s' = Some h /\ closed s' = closed s /\ ~ In h (closed s) \/
    mfh s' = None /\ closed s' = (if h =? stdout then closed s else closed s ++ [h])) /\
   exists o, out s' = out s ++ o /\ Forall (fun e => fst e = h) o /\ (In h (closed s) -> o = []).
Proof.
  intros H. destruct (mfh s) as [h|] eqn:E.
  - right. exists h. split; [reflexivity|]. destruct H as [[t ->]|[t ->]].
    + destruct (wl_spec broken s h t E _ eq_refl) as [L [(A & _ & B & C & D)|(A & B & D)]]; split; auto; split; auto.
      eexists. split; [exact D|]. split; [destruct (need s); repeat constructor|]. intros I. contradiction.
    + destruct (wc_spec broken s h t E _ eq_refl) as [L [(A & _ & B & C & D)|(A & B & D)]]; split; auto; split; auto.
      eexists. split; [exact D|]. split; [repeat constructor|]. intros I. contradiction.
  - left. destruct H as [[t ->]|[t ->]]; [apply wl_none|apply wc_none]; exact E.
Qed.

Lemma prim_ind' (P : mst -> Prop) :
  (forall s s', (exists t, s' = write_line broken s t) \/ (exists t, s' = write_char broken s t) -> P s -> P s') ->
  (forall s new, P s -> P (fst (fh_set s new))) -> (forall s, P s -> P (fst (line_written s))) ->
  forall s s', prim broken s s' -> P s -> P s'.
Proof. intros H1 H2 H3 s s' H. induction H as [| | | |]; intros HP; auto; apply IHprim; eauto. Qed.
End H.

(** STDOUT is never closed *)
Theorem C68_stdout broken fmt ops : ~ In stdout (closed (m_exec broken fmt m_init ops)).
Proof.
  refine (prim_ind' broken (fun s => ~ In stdout (closed s)) _ _ _ _ _ (exec_prim broken fmt ops m_init) (fun H => H)).
  - intros s s' H N. destruct (line_or_char broken s s' H) as [->|(h & _ & _ & [(_ & -> & _)|(_ & ->)] & _)]; auto.
    destruct (Nat.eqb_spec h stdout); [auto|]. intros I. apply in_app_or in I. destruct I as [I|[I|[]]]; auto.
  - intros s new N I. apply fh_set_closed in I. destruct I as [I|[_ I]]; auto.
  - auto.
Qed.
(** Nothing is ever written to a handle once it is closed *)
Theorem C68_closed broken fmt s ops h : In h (closed s) -> sent h (m_exec broken fmt s ops) = sent h s.
Proof.
  intros I0.
  refine (proj2 (prim_ind' broken (fun s' => In h (closed s') /\ sent h s' = sent h s) _ _ _ s _ (exec_prim broken fmt ops s) (conj I0 eq_refl))).
  - intros s1 s' H [I E]. destruct (line_or_char broken s1 s' H) as [->|(k & _ & _ & C & (o & O & F & Z))]; [auto|]. split.
    + destruct C as [(_ & -> & _)|(_ & ->)]; [auto|]. destruct (k =? stdout); [auto|]. apply in_or_app. auto.
    + rewrite (sent_app h s1 o _ O), E. destruct (Nat.eq_dec h k) as [->|D].
      * rewrite (Z I). cbn. apply app_nil_r.
      * rewrite (sent_diff k h o D F). cbn. apply app_nil_r.
  - intros s1 new [I E]. split; [apply fh_set_keeps; exact I|]. unfold sent in *. rewrite (proj1 (fh_set_out s1 new)). exact E.
  - auto.
Qed.
(** A handle that was written to, other than STDOUT, is closed when it is replaced,
    logging is stopped, or a write fails *)
Theorem C68_replaced broken fmt s ops h : mfh s = Some h -> h <> stdout ->
  mfh (m_exec broken fmt s ops) = Some h \/ In h (closed (m_exec broken fmt s ops)).
Proof.
  intros E0 D.
  refine (prim_ind' broken (fun s' => mfh s' = Some h \/ In h (closed s')) _ _ _ s _ (exec_prim broken fmt ops s) (or_introl E0)).
  - intros s1 s' H [E|I]; destruct (line_or_char broken s1 s' H) as [->|(k & M & _ & C & _)]; auto.
    + assert (k = h) by congruence. subst k. destruct C as [(M' & _)|(_ & ->)]; [auto|].
      destruct (Nat.eqb_spec h stdout); [contradiction|]. right. apply in_or_app. right. left. reflexivity.
    + right. destruct C as [(_ & -> & _)|(_ & ->)]; [auto|]. destruct (k =? stdout); [auto|]. apply in_or_app. auto.
  - intros s1 new [E|I]; [apply fh_set_gone; auto|]. right. apply fh_set_keeps. exact I.
  - auto.
Qed.
(** Setting the handle: with it as only argument, the previous one is returned and
    nothing is written *)
Theorem C68_set broken fmt s a new :
  (a, new) = (ANone, None) \/ (a, new) = (ABool false, None) \/ (a, new) = (ABool true, Some stdout) \/ (exists h, (a, new) = (AHandle h, Some h)) ->
  exists s', msg_call broken fmt s [a] = (s', Ok (mfh s)) /\ mfh s' = new /\ out s' = out s /\
    msg_call broken fmt s' [] = (s', Ok new).
Proof.
  intros H. exists (fst (fh_set s new)).
  assert (X : msg_call broken fmt s [a] = (fst (fh_set s new), Ok (mfh s))).
  { rewrite call_rest, <- (fh_set_ret s new).
    destruct H as [H|[H|[H|[h H]]]]; injection H as -> ->; reflexivity. }
  rewrite X, fh_set_mfh, (proj1 (fh_set_out s new)). repeat split. rewrite call_rest. cbn. rewrite fh_set_mfh. reflexivity.
Qed.
(** While logging is off, nothing is written and it stays off *)
Theorem C68_off broken fmt s ops : mfh s = None -> Forall no_switch ops ->
  mfh (m_exec broken fmt s ops) = None /\ out (m_exec broken fmt s ops) = out s.
Proof.
  intros E F. revert s E. induction F as [|op ops NS F IH]; intros s E; [auto|].
  assert (X : mfh (m_step broken fmt s op) = None /\ out (m_step broken fmt s op) = out s).
  { assert (R : forall fh args, fst (rest_call broken fmt s fh args) = s).
    { intros fh args. destruct (rest_cases broken fmt s fh args) as [[t ->]|[[t ->]| ->]]; auto using wl_none, wc_none. }
    destruct op as [args|t|t|]; cbn [m_step].
    - rewrite call_rest. destruct args as [|a r]; [rewrite R; auto|]. destruct (is_first a) eqn:FA; [|rewrite R; auto].
      destruct a; cbn in NS, FA; try easy. cbn [fhset_arg fst snd]. rewrite wl_none by exact E. rewrite R. auto.
    - rewrite wl_none; auto.
    - rewrite wc_none; auto.
    - auto. }
  destruct X as [X Y]. cbn [m_exec]. destruct (IH _ X) as [IH1 IH2]. split; [exact IH1|congruence].
Qed.
(** Whether a call raises, and what, depends on its arguments only: not on
    handles or failures in writing *)
Theorem C68_raises fmt args broken1 s1 broken2 s2 e :
  snd (msg_call broken1 fmt s1 args) = Raise e -> snd (msg_call broken2 fmt s2 args) = Raise e.
Proof.
  assert (R : forall s1 s2 f1 f2 args, snd (rest_call broken1 fmt s1 f1 args) = Raise e -> snd (rest_call broken2 fmt s2 f2 args) = Raise e).
  { intros t1 t2 f1 f2 a. unfold rest_call. destruct a as [|a [|b r]]; [discriminate| |].
    - destruct (falsy a); [discriminate|]. destruct a; auto. discriminate.
    - destruct (prefix_loop 2 (a :: b :: r) []) as [[pre [|[h| |x|z|t|n] rest]]|x]; auto.
      destruct (suffix_loop (braces t) (rev rest) []) as [suf rr]. destruct (fmt t (rev rr)); [discriminate|auto]. }
  rewrite !call_rest. destruct args as [|a r]; [apply R|]. destruct (is_first a); apply R.
Qed.
(** If writing to the handle fails, then instead of an exception logging is off *)
Theorem C68_failure broken fmt s h t : mfh s = Some h -> (forall n, broken h n = true) -> t <> [] ->
  exists s', msg_call broken fmt s [AStr t] = (s', Ok None) /\ mfh s' = None /\ out s' = out s.
Proof.
  intros E B N.
  assert (K : forall s0, io_ok broken s0 h = false) by (intros s0; unfold io_ok; rewrite B; apply andb_false_r).
  rewrite call_rest. cbn [is_first]. unfold rest_call. replace (falsy (AStr t)) with false by (destruct t; [contradiction|reflexivity]).
  cbv zeta. generalize (if is_dash (AStr t) then dashes true false else t) as u. intros u.
  assert (O : forall s0, mfh s0 = Some h -> mfh (fst (fh_set s0 None)) = None /\ out (fst (fh_set s0 None)) = out s0).
  { intros s0 _. split; [apply fh_set_mfh|apply fh_set_out]. }
  assert (G : forall s', s' = (if length u =? 1 then write_char broken s u else write_line broken s u) -> mfh s' = None /\ out s' = out s).
  { intros s' ->. destruct (length u =? 1).
    - unfold write_char. rewrite E. unfold io. rewrite K. apply (O (mkMst _ _ _ _ _ _)). exact E.
    - unfold write_line. rewrite E. destruct (need s).
      + unfold io. rewrite K. apply (O (mkMst _ _ _ _ _ _)). exact E.
      + unfold io. rewrite K. apply (O (mkMst _ _ _ _ _ _)). exact E. }
  destruct (G _ eq_refl) as [G1 G2]. eexists. rewrite G1. split; [reflexivity|]. auto.
Qed.

(** Concrete: a file, then STDOUT, then a file that cannot be written to, then off *)
Definition bad3 (h : handle) (n : nat) : bool := h =? 3.
Example C68_ex :
  let s := m_exec bad3 fmt_v m_init [MCall [AHandle 1]; MCall [AStr (str "ab")]; MCall [ABool true]; MCall [AStr (str "cd")];
    MCall [AHandle 3]; MCall [AStr (str "ef")]; MCall [AStr (str "gh")]; MCall [AHandle 1]; MCall [AStr (str "ij")]] in
  mfh s = None /\ closed s = [1; 3; 1] /\ sent 1 s = str "ab" ++ [NL] /\ sent stdout s = str "cd" ++ [NL] /\ sent 3 s = [] /\
  snd (msg_call bad3 fmt_v s [AHandle 5]) = Ok None /\
  snd (msg_call bad3 fmt_v s [AStr (str "{} {}"); AOther 1]) = Raise ValueError.
Proof. vm_compute. repeat split. Qed.

(** Unless writing to the handle fails, logging to it goes on *)
Theorem C68_stays broken fmt s ops h : mfh s = Some h -> ~ In h (closed s) -> (forall n, broken h n = false) -> Forall no_switch ops ->
  mfh (m_exec broken fmt s ops) = Some h /\ closed (m_exec broken fmt s ops) = closed s.
Proof.
  intros E N B F.
  assert (K : forall s0 t s1 ok, closed s0 = closed s -> io broken s0 h t = (s1, ok) -> ok = true /\ mfh s1 = mfh s0 /\ closed s1 = closed s).
  { intros s0 t s1 ok C. unfold io, io_ok. rewrite B, C. intros X. injection X as <- <-. cbn.
    replace (existsb (Nat.eqb h) (closed s)) with false; [auto|].
    symmetry. apply not_true_is_false. intros X. apply existsb_exists in X. destruct X as (k & I & X). apply Nat.eqb_eq in X. subst k. contradiction. }
  assert (P : forall s0, mfh s0 = Some h /\ closed s0 = closed s ->
    (forall t, mfh (write_line broken s0 t) = Some h /\ closed (write_line broken s0 t) = closed s) /\
    (forall t, mfh (write_char broken s0 t) = Some h /\ closed (write_char broken s0 t) = closed s)).
  { intros s0 [E0 C0]. split; intros t.
    - unfold write_line. rewrite E0.
      assert (Q : exists s1, (if need s0 then let (s1, ok) := io broken s0 h (Some [NL]) in (if ok then set_need s1 false else s1, ok) else (s0, true)) = (s1, true) /\
        mfh s1 = Some h /\ closed s1 = closed s).
      { destruct (need s0); [|eauto]. destruct (io broken s0 h (Some [NL])) as [s1 ok] eqn:I. destruct (K _ _ _ _ C0 I) as (-> & M & C).
        eexists. split; [reflexivity|]. cbn. split; congruence. }
      destruct Q as (s1 & -> & M1 & C1). destruct (io broken s1 h (Some (t ++ [NL]))) as [s2 ok2] eqn:I2. destruct (K _ _ _ _ C1 I2) as (-> & M2 & C2).
      destruct (io broken s2 h None) as [s3 ok3] eqn:I3. destruct (K _ _ _ _ C2 I3) as (-> & M3 & C3). split; congruence.
    - unfold write_char. rewrite E0. destruct (io broken s0 h (Some t)) as [s2 ok2] eqn:I2. destruct (K _ _ _ _ C0 I2) as (-> & M2 & C2).
      destruct (io broken s2 h None) as [s3 ok3] eqn:I3. destruct (K _ _ _ _ C2 I3) as (-> & M3 & C3). cbn. split; congruence. }
  assert (R : forall s0 fh args, mfh s0 = Some h /\ closed s0 = closed s ->
    mfh (fst (rest_call broken fmt s0 fh args)) = Some h /\ closed (fst (rest_call broken fmt s0 fh args)) = closed s).
  { intros s0 fh a H. destruct (P s0 H) as [P1 P2]. destruct (rest_cases broken fmt s0 fh a) as [[t ->]|[[t ->]| ->]]; auto. }
  assert (G : forall s0, mfh s0 = Some h /\ closed s0 = closed s -> mfh (m_exec broken fmt s0 ops) = Some h /\ closed (m_exec broken fmt s0 ops) = closed s).
  { induction F as [|op ops NS F IH]; intros s0 H; [exact H|]. cbn [m_exec]. apply IH. destruct (P s0 H) as [P1 P2].
    destruct op as [args|t|t|]; cbn [m_step]; [|apply P1|apply P2|exact H].
    rewrite call_rest. destruct args as [|a r]; [apply R; exact H|]. destruct (is_first a) eqn:FA; [|apply R; exact H].
    destruct a; cbn in NS, FA; try easy. apply R. cbn [fhset_arg fst snd]. apply P1. }
  apply G. auto.
Qed.
Example C68_ex_stays :
  let s := m_exec bad3 fmt_v m_init [MCall [AHandle 1]; MCall [AStr (str "ab")]; MCall [AInt 1; AStr (str "*")]] in
  mfh s = Some 1 /\ closed s = [].
Proof. vm_compute. auto. Qed.

(** Not always: with 0 first, None is returned while messages are being logged *)
Theorem C68_return_refuted : ~ forall s args, mfh s <> None -> 2 <= length args -> no_switch (MCall args) ->
  forall s' r, msg_call fine fmt_v s args = (s', Ok r) -> mfh s' = mfh s -> r = mfh s.
Proof.
  intros H. set (s := m_exec fine fmt_v m_init [MCall [AHandle 1]]).
  specialize (H s [AInt 0; AStr (str "a {}"); AOther 1] ltac:(discriminate) ltac:(cbn; lia) I).
  assert (X := H (fst (msg_call fine fmt_v s [AInt 0; AStr (str "a {}"); AOther 1])) None).
  assert (Y : (@None handle) = mfh s) by (apply X; vm_compute; reflexivity). discriminate Y.
Qed.

(** ** C69: lineWritten never tells of a line *)
Theorem C69_line_written_refuted broken fmt ops :
  snd (line_written (m_exec broken fmt m_init ops)) = false.
Proof.
  refine (prim_ind' broken (fun s => lwas s = false) _ _ _ _ _ (exec_prim broken fmt ops m_init) eq_refl).
  - intros s s' H N. destruct (line_or_char broken s s' H) as [->|(h & _ & L & _)]; congruence.
  - intros s new N. rewrite (proj2 (fh_set_out s new)). exact N.
  - reflexivity.
Qed.
Example C69_ex :
  let s := m_exec fine fmt_v m_init [MCall [AHandle 1]; MWritten; MCall [AStr (str "ab")]] in
  sent 1 s = str "ab" ++ [NL] /\ snd (line_written s) = false.
Proof. vm_compute. auto. Qed.

Print Assumptions C67_text.
Print Assumptions C67_format.
Print Assumptions C67_consecutive.
Print Assumptions C67_zero.
Print Assumptions C67_blank.
Print Assumptions C67_blank_refuted.
Print Assumptions C67_switch_refuted.
Print Assumptions C68_stdout.
Print Assumptions C68_closed.
Print Assumptions C68_replaced.
Print Assumptions C68_set.
Print Assumptions C68_off.
Print Assumptions C68_raises.
Print Assumptions C68_failure.
Print Assumptions C68_stays.
Print Assumptions C68_return_refuted.
Print Assumptions C69_line_written_refuted.

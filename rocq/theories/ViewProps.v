(** * When the image viewer is started and ended (C92). *)
From Coq Require Import Bool Arith List Lia.
From Verif Require Import ViewModel.
Import ListNotations.
Local Open Scope nat_scope.

(** ** Lemmas *)
Lemma spawn_spec n : forall i ex pid s, exists s', spawn_from n i ex pid s = s' /\ ntf s' = ntf s /\ termed s' = termed s /\ calls s' = calls s /\
  ((exists j, i <= j < i + n /\ ex j = true /\ (forall k, i <= k < j -> ex k = false) /\ tr s' = Some (Some pid) /\ pf s' = Pid pid /\ wait s' = Some j /\
     spawned s' = spawned s ++ [pid] /\ complaints s' = complaints s) \/
   ((forall j, i <= j < i + n -> ex j = false) /\ tr s' = tr s /\ pf s' = pf s /\ wait s' = None /\ spawned s' = spawned s /\ complaints s' = S (complaints s))).
Proof.
  induction n as [|n IH]; intros i ex pid s; cbn [spawn_from].
  - eexists. split; [reflexivity|]. cbn. repeat split; auto. right. repeat split; auto. intros; lia.
  - destruct (ex i) eqn:E.
    + eexists. split; [reflexivity|]. cbn. repeat split; auto. left. exists i. repeat split; auto; lia.
    + destruct (IH (S i) ex pid s) as (s' & E' & A & B & C & D). exists s'. repeat split; auto. destruct D as [(j & J & X & N & R)|(N & R)].
      * left. exists j. split; [lia|]. split; [exact X|]. split; [|exact R]. intros k K. destruct (Nat.eq_dec k i) as [->|]; [exact E|]. apply N. lia.
      * right. split; [|exact R]. intros j J. destruct (Nat.eq_dec j i) as [->|]; [exact E|]. apply N. lia.
Qed.
(** as long as there is a notifier nothing was spawned; afterwards at most as many
    processes as places of exList were tried *)
Definition v_inv (s : vst) : Prop :=
  (ntf s = true /\ tr s = None /\ wait s = None /\ spawned s = [] /\ termed s = [] /\ calls s = 0 /\ complaints s = 0) \/
  (ntf s = false /\ calls s <= 1 /\ (calls s = 0 -> tr s = None /\ wait s = None /\ spawned s = []) /\
   length (spawned s) + complaints s <= viewers + 1 /\ length (spawned s) <= viewers /\ complaints s <= 1 /\
   (forall i, wait s = Some i -> i < viewers /\ length (spawned s) <= S i /\ complaints s = 0) /\
   (forall pid, tr s = Some (Some pid) -> pf s = Pid pid) /\ (spawned s <> [] -> exists pre pid, spawned s = pre ++ [pid] /\ pf s = Pid pid) /\
   (forall pid, In pid (termed s) -> In pid (spawned s)) /\ (forall pid, tr s = Some (Some pid) -> In pid (spawned s))).

Lemma term_inv s : v_inv s -> v_inv (termViewer s).
Proof.
  intros I. unfold termViewer. destruct (tr s) as [p|] eqn:T; [|exact I].
  destruct I as [(A & B & _)|(A & B & C & D & E & F & G & H & J & K & L)]; [congruence|]. right. cbn.
  split; [exact A|]. split; [exact B|]. split; [intros Z; destruct (C Z) as (X & _); congruence|]. split; [exact D|]. split; [exact E|].
  split; [exact F|]. split; [exact G|]. split; [discriminate|]. split; [exact J|]. split; [|discriminate].
  intros pid I. apply in_app_or in I. destruct I as [I|I]; [auto|]. destruct p as [q|]; [|destruct I]. destruct I as [<-|[]]. auto.
Qed.
Lemma step_inv s e s' : v_inv s -> v_step s e = Some s' -> v_inv s'.
Proof.
  intros I E. destruct e as [isf al ex pid|err ex pid| |]; cbn [v_step] in E.
  - destruct (ntf s) eqn:N; [|discriminate]. injection E as <-.
    destruct I as [(A & T & W & S & TM & C & CP)|(A & _)]; [|congruence]. rewrite T.
    destruct isf; [|left; auto 10]. destruct (processRunning (pf s) al); [left; auto 10|].
    unfold spawnViewer. set (s0 := mkV _ _ _ _ _ _ _ _).
    destruct (spawn_spec viewers 0 ex pid s0) as (s' & -> & X1 & X2 & X3 & X4). right. unfold set_ntf. cbn.
    unfold s0 in *. cbn in *. rewrite X2, X3, TM, C, S in *. split; [reflexivity|]. split; [lia|]. split; [lia|].
    destruct X4 as [(j & J & X & NX & E1 & E2 & E3 & E4 & E5)|(NX & E1 & E2 & E3 & E4 & E5)]; rewrite E1, E2, E3, E4, E5, CP; cbn [length app].
    + unfold viewers in *. split; [lia|]. split; [lia|]. split; [lia|]. split; [intros i Q; injection Q as <-; lia|].
      split; [congruence|]. split; [intros _; exists [], pid; auto|]. split; [intros q []|]. intros q Q. left. congruence.
    + rewrite T. unfold viewers in *. split; [lia|]. split; [lia|]. split; [lia|]. split; [discriminate|].
      split; [discriminate|]. split; [congruence|]. split; [intros q []|discriminate].
  - destruct (wait s) as [i|] eqn:W; [|discriminate]. injection E as <-.
    destruct I as [(A & T & W' & _)|(A & B & C & D & LE & F & G & H & J & K & L)]; [congruence|].
    destruct (G i W) as (G1 & G2 & G3).
    assert (C1 : calls s = 1). { destruct (Nat.eq_dec (calls s) 0) as [Z|Z]; [|lia]. destruct (C Z) as (_ & X & _). congruence. }
    cbv zeta. destruct err.
    + remember (viewers - S i) as m eqn:M. match goal with |- context [spawn_from ?a ?b ?c ?d ?e] => destruct (spawn_spec a b c d e) as (s' & -> & X1 & X2 & X3 & X4) end.
      right. cbn in X1, X2, X3, X4. rewrite X1, X2, X3. split; [exact A|]. split; [exact B|]. split; [intros; lia|].
      destruct X4 as [(j & JJ & X & NX & E1 & E2 & E3 & E4 & E5)|(NX & E1 & E2 & E3 & E4 & E5)]; rewrite E1, E2, E3, E4, E5.
      * rewrite app_length; cbn [length]. unfold viewers in *. assert (J2 : i < j < 2) by (destruct i as [|[|]]; lia). split; [lia|]. split; [lia|]. split; [lia|].
        split; [intros k Q; injection Q as <-; lia|]. split; [congruence|]. split; [intros _; exists (spawned s), pid; auto|].
        split; [intros q Q; apply in_or_app; left; auto|]. intros q Q. apply in_or_app. right. left. congruence.
      * unfold viewers in *. split; [lia|]. split; [lia|]. split; [lia|]. split; [discriminate|].
        split; [destruct (tr s); discriminate|]. split; [exact J|]. split; [exact K|]. destruct (tr s); discriminate.
    + right. cbn. split; [exact A|]. split; [exact B|]. split; [intros; lia|]. split; [exact D|]. split; [exact LE|]. split; [exact F|].
      split; [discriminate|]. split; [destruct (tr s); discriminate|]. split; [exact J|]. split; [exact K|]. destruct (tr s); discriminate.
  - injection E as <-. apply term_inv. exact I.
  - injection E as <-. destruct I as [(A & T & W & S & TM & C & CP)|(A & B)].
    + right. unfold set_ntf. cbn. rewrite T, W, S, TM, C, CP. cbn. unfold viewers.
      split; [reflexivity|]. split; [lia|]. split; [auto|]. split; [lia|]. split; [lia|]. split; [lia|]. split; [discriminate|].
      split; [discriminate|]. split; [congruence|]. split; [intros q []|discriminate].
    + right. unfold set_ntf. cbn. split; [reflexivity|exact B].
Qed.
Lemma exec_inv es : forall s s', v_inv s -> v_exec s es = Some s' -> v_inv s'.
Proof.
  induction es as [|e es IH]; intros s s' I E; [injection E as <-; exact I|]. cbn in E. destruct (v_step s e) as [s1|] eqn:X; [|discriminate].
  eapply IH; [|exact E]. eapply step_inv; eauto.
Qed.
Lemma init_inv f : v_inv (v_init f).
Proof. left. cbn. auto 10. Qed.

(** ** C92: one viewer *)
(** Whatever happens: spawnViewer runs at most once, no program of the list is started
    twice, and it is said at most once that none was found.  As long as there is a
    notifier none was started, and afterwards there never is one again. *)
Theorem C92_at_most_once f es s : v_exec (v_init f) es = Some s ->
  calls s <= 1 /\ length (spawned s) <= viewers /\ complaints s <= 1 /\
  (ntf s = true -> calls s = 0 /\ spawned s = []) /\ (ntf s = false -> forall es' s', v_exec s es' = Some s' -> ntf s' = false).
Proof.
  intros E. pose proof (exec_inv es _ _ (init_inv f) E) as I. unfold viewers in *. split; [|split; [|split; [|split]]].
  - destruct I as [(_ & _ & _ & _ & _ & -> & _)|(_ & B & _)]; lia.
  - destruct I as [(_ & _ & _ & -> & _)|(_ & _ & _ & _ & B & _)]; cbn; auto. 
  - destruct I as [(_ & _ & _ & _ & _ & _ & ->)|(_ & _ & _ & _ & _ & B & _)]; lia.
  - intros N. destruct I as [(_ & _ & _ & S & _ & C & _)|(A & _)]; [auto|congruence].
  - clear I E. intros N es'. revert s N. induction es' as [|e es' IH]; intros s N s' E; [injection E as <-; exact N|]. cbn [v_exec] in E.
    destruct (v_step s e) as [s1|] eqn:X; [|discriminate]. apply (IH s1); auto. destruct e as [isf al ex pid|err ex pid| |]; cbn [v_step] in X.
    + rewrite N in X. discriminate.
    + destruct (wait s) as [i|]; [|discriminate]. injection X as <-. destruct err; [|exact N].
      match goal with |- ntf (spawn_from ?a ?b ?c ?d ?e) = _ => destruct (spawn_spec a b c d e) as (s2 & -> & Y & _); rewrite Y; exact N end.
    + injection X as <-. unfold termViewer. destruct (tr s); exact N.
    + injection X as <-. reflexivity.
Qed.
(** None is started while the process of the PID file is there *)
Theorem C92_already_running f alive exists_ pid isfile es s : v_exec (v_init f) es = Some s ->
  (exists n, pf s = Pid n /\ alive n = true) -> spawned s = [] -> forall s', v_step s (ENotify isfile alive exists_ pid) = Some s' -> s' = s.
Proof.
  intros E (n & F & A) S s' X. pose proof (exec_inv es _ _ (init_inv f) E) as I. cbn [v_step] in X.
  destruct (ntf s) eqn:N; [|discriminate]. injection X as <-. destruct I as [(_ & T & _)|(B & _)]; [|congruence]. rewrite T, F. cbn.
  rewrite A. destruct isfile; reflexivity.
Qed.
(** Otherwise the first program there is gets started, and its PID is in the file; if it
    ends with an error message the next one is, until one does not or none is left *)
Theorem C92_first f alive exists_ pid es s : v_exec (v_init f) es = Some s -> ntf s = true ->
  (forall n, pf s = Pid n -> alive n = false) ->
  exists s', v_step s (ENotify true alive exists_ pid) = Some s' /\ ntf s' = false /\ calls s' = 1 /\
    ((exists j, j < viewers /\ exists_ j = true /\ (forall k, k < j -> exists_ k = false) /\ wait s' = Some j /\ spawned s' = [pid] /\ pf s' = Pid pid /\ complaints s' = 0) \/
     ((forall j, j < viewers -> exists_ j = false) /\ spawned s' = [] /\ pf s' = pf s /\ complaints s' = 1)).
Proof.
  intros E N F. pose proof (exec_inv es _ _ (init_inv f) E) as I. destruct I as [(_ & T & W & S & TM & C & CP)|(B & _)]; [|congruence].
  cbn [v_step]. rewrite N, T. assert (P : processRunning (pf s) alive = false) by (destruct (pf s); cbn; auto). rewrite P.
  eexists. split; [reflexivity|]. unfold spawnViewer. set (s0 := mkV _ _ _ _ _ _ _ _).
  destruct (spawn_spec viewers 0 exists_ pid s0) as (s' & -> & X1 & X2 & X3 & X4). unfold s0, set_ntf in *. cbn in *. rewrite X3, C.
  split; [reflexivity|]. split; [reflexivity|].
  destruct X4 as [(j & J & X & NX & E1 & E2 & E3 & E4 & E5)|(NX & E1 & E2 & E3 & E4 & E5)]; rewrite ?E2, ?E3, ?E4, ?E5, ?S, ?CP.
  - left. exists j. split; [lia|]. split; [exact X|]. split; [intros; apply NX; lia|]. auto.
  - right. split; [intros; apply NX; lia|]. auto.
Qed.
Theorem C92_next f es s err exists_ pid i : v_exec (v_init f) es = Some s -> wait s = Some i ->
  exists s', v_step s (EEnd err exists_ pid) = Some s' /\
    (err = false -> wait s' = None /\ spawned s' = spawned s /\ complaints s' = complaints s) /\
    (err = true ->
     (exists j, i < j < viewers /\ exists_ j = true /\ (forall k, i < k < j -> exists_ k = false) /\ wait s' = Some j /\ spawned s' = spawned s ++ [pid] /\ pf s' = Pid pid) \/
     ((forall j, i < j < viewers -> exists_ j = false) /\ wait s' = None /\ spawned s' = spawned s /\ complaints s' = 1)).
Proof.
  intros E W. pose proof (exec_inv es _ _ (init_inv f) E) as I. cbn [v_step]. rewrite W. eexists. split; [reflexivity|]. split; intros ->.
  - cbn. auto.
  - destruct I as [(_ & _ & W' & _)|(_ & _ & _ & _ & _ & _ & G & _)]; [congruence|]. destruct (G i W) as (G1 & G2 & G3).
    remember (viewers - S i) as m eqn:M. match goal with |- context [spawn_from ?a ?b ?c ?d ?e] => destruct (spawn_spec a b c d e) as (s' & -> & X1 & X2 & X3 & X4) end.
    cbn in X4.
    destruct X4 as [(j & J & X & NX & E1 & E2 & E3 & E4 & E5)|(NX & E1 & E2 & E3 & E4 & E5)].
    + left. exists j. unfold viewers in *. split; [lia|]. split; [exact X|]. split; [intros; apply NX; lia|]. auto.
    + right. unfold viewers in *. split; [intros; apply NX; lia|]. repeat split; auto. congruence.
Qed.
(** The PID file names the process started last, and only processes started here are ended *)
Theorem C92_pids f es s : v_exec (v_init f) es = Some s ->
  (spawned s = [] \/ exists pre pid, spawned s = pre ++ [pid] /\ pf s = Pid pid) /\ (forall pid, In pid (termed s) -> In pid (spawned s)).
Proof.
  intros E. pose proof (exec_inv es _ _ (init_inv f) E) as I. destruct I as [(_ & _ & _ & S & TM & _)|(_ & _ & _ & _ & _ & _ & _ & _ & J & K & _)].
  - split; [auto|]. rewrite TM. intros pid [].
  - split; [|exact K]. destruct (spawned s) eqn:X; [auto|right; apply J; discriminate].
Qed.
(** The viewer is not ended when the file is removed: by then there is no notifier *)
Theorem C92_file_removed_refuted : ~ (forall f es s alive exists_ pid, v_exec (v_init f) es = Some s -> spawned s <> [] -> wait s <> None ->
  exists s', v_step s (ENotify false alive exists_ pid) = Some s' /\ termed s' <> []).
Proof.
  intros H. specialize (H NoFile [ENotify true (fun _ => false) (fun _ => true) 7] _ (fun _ => true) (fun _ => true) 8 eq_refl).
  destruct H as (s' & E & _); [discriminate|discriminate|]. discriminate.
Qed.
(** If no program was there, none is started later *)
Theorem C92_later_refuted : ~ (forall f es s, v_exec (v_init f) es = Some s -> spawned s = [] ->
  exists s', v_step s (ENotify true (fun _ => false) (fun _ => true) 7) = Some s').
Proof.
  intros H. specialize (H NoFile [ENotify true (fun _ => false) (fun _ => false) 7] _ eq_refl eq_refl). destruct H as (s' & E). discriminate.
Qed.
Example C92_nonvacuous :
  let es := [ENotify true (fun n => n =? 5) (fun _ => true) 6; ENotify false (fun _ => false) (fun _ => true) 6;
             ENotify true (fun _ => false) (fun j => j =? 0) 6; EEnd true (fun j => j =? 1) 9] in
  option_map (fun s => (ntf s, wait s, spawned s, pf s, complaints s)) (v_exec (v_init (Pid 5)) es) = Some (false, Some 1, [6; 9], Pid 9, 0) /\
  option_map (fun s => (ntf s, spawned s)) (v_exec (v_init (Pid 5)) (firstn 2 es)) = Some (true, []) /\
  option_map (fun s => (wait s, termed s, complaints s)) (v_exec (v_init (Pid 5)) (es ++ [ETerm; EEnd true (fun _ => true) 3])) = Some (None, [9], 1).
Proof. repeat split. Qed.

Print Assumptions C92_at_most_once.
Print Assumptions C92_already_running.
Print Assumptions C92_first.
Print Assumptions C92_next.
Print Assumptions C92_pids.
Print Assumptions C92_file_removed_refuted.
Print Assumptions C92_later_refuted.

(** * Properties of the command line arguments (C96). *)
From Coq Require Import String Ascii List Bool Arith Lia.
From Verif Require Import Py LogModel LogProofs ArgsModel ArgsProofs.
From Verif Require SpecsModel.
Import ListNotations.
Local Open Scope nat_scope.

(** ** Description *)
Definition blank (l : text) : Prop := Forall (fun c => is_space c = true) l.
(** Groups of lines separated by single blank lines are the paragraphs: the first one the
    description, the others the epilog; indentation is removed, and blank lines before and
    after do not matter *)
Theorem C96_text fill b0 b1 g gs : Forall blank b0 -> Forall blank b1 ->
  Forall (fun g => g <> [] /\ Forall (fun l => ~ blank l /\ ~ In nl l) g) (g :: map snd gs) -> Forall (fun bg => blank (fst bg) /\ ~ In nl (fst bg)) gs ->
  let P g := fill (join (txt " ") (map strip g)) in
  describe fill (join [nl] (b0 ++ (g ++ flat_map (fun bg => fst bg :: snd bg) gs) ++ b1)) =
  (Some (P g), match gs with [] => None | _ => Some (join [nl; nl] (map P (map snd gs))) end).
Proof.
  intros B0 B1 F B P. assert (NB : forall l, ~ blank l -> strip l <> []) by (intros l H Z; apply H; exact (all_blank l Z)).
  assert (BS : forall b, Forall blank b -> Forall (fun l => strip l = []) b) by (intros b; apply Forall_impl; intros l; apply strip_nil).
  assert (F' : Forall (fun g => g <> [] /\ Forall (fun l => strip l <> []) g) (g :: map snd gs)).
  { eapply Forall_impl; [|exact F]. intros x [N X]. split; [exact N|]. eapply Forall_impl; [|exact X]. intros l [L _]. now apply NB. }
  assert (B' : Forall (fun bg : text * list text => strip (fst bg) = []) gs) by (eapply Forall_impl; [|exact B]; intros x [X _]; now apply strip_nil).
  assert (N : Forall no_nl (g ++ flat_map (fun bg : text * list text => fst bg :: snd bg) gs)).
  { inversion F as [|? ? [_ Fg] Fs]; subst. apply Forall_app. split; [eapply Forall_impl; [|exact Fg]; now intros l [_ L]|]. clear - Fs B.
    induction gs as [|[b h] gs IH]; [constructor|]. inversion Fs as [|? ? [_ Fh] Ft]; subst. inversion B as [|? ? [_ Bh] Bt]; subst. cbn [flat_map fst snd]. constructor; [exact Bh|].
    apply Forall_app. split; [eapply Forall_impl; [|exact Fh]; now intros l [_ L]|]. now apply IH. }
  assert (LAST : forall gs g, Forall (fun g => g <> [] /\ Forall (fun l => strip l <> []) g) (g :: map snd gs) -> strip (last (g ++ flat_map (fun bg : text * list text => fst bg :: snd bg) gs) []) <> []).
  { clear. induction gs as [|[b h] gs IH]; intros g F; inversion F as [|? ? [NE F1] F2]; subst.
    - cbn [flat_map]. rewrite app_nil_r. rewrite Forall_forall in F1. apply F1. rewrite (app_removelast_last [] NE) at 2. apply in_or_app. right. now left.
    - specialize (IH h F2). cbn [flat_map fst snd].
      assert (NE2 : h ++ flat_map (fun bg : text * list text => fst bg :: snd bg) gs <> []) by (inversion F2 as [|? ? [NEh _] _]; destruct h; [congruence|discriminate]).
      destruct (exists_last NE2) as (i & z & E). rewrite E in *. change ((b :: h) ++ flat_map (fun bg : text * list text => fst bg :: snd bg) gs) with (b :: (h ++ flat_map (fun bg : text * list text => fst bg :: snd bg) gs)).
      rewrite E. change (b :: i ++ [z]) with ((b :: i) ++ [z]). rewrite app_assoc, last_last. rewrite last_last in IH. exact IH. }
  specialize (LAST gs g F'). assert (P' := paras_all fill gs g F' B').
  destruct (g ++ flat_map (fun bg : text * list text => fst bg :: snd bg) gs) as [|m ms] eqn:E.
  { inversion F as [|? ? [NE _] _]; subst. destruct g; [congruence|discriminate]. }
  assert (M : strip m <> []). { inversion F' as [|? ? [NE Fg] _]; subst. destruct g as [|x g]; [congruence|]. injection E as -> _. now inversion Fg. }
  destruct (lines_spec b0 m ms b1 (BS _ B0) (BS _ B1) M LAST N) as (ls & S & Q). unfold describe. rewrite S. rewrite (paras_map fill [] ls (m :: ms) Q), P'.
  cbn [map]. destruct gs as [|bg gs]; reflexivity.
Qed.
(** Two blank lines in a row make an empty paragraph *)
Theorem C96_blank_lines_refuted : ~ (forall s d e, describe (fun s => s) s = (Some d, Some e) -> exists c r, e = c :: r /\ c <> nl).
Proof.
  intros H. destruct (H (txt "a" ++ [nl; nl; nl] ++ txt "b") (txt "a") ([nl; nl] ++ txt "b") eq_refl) as (c & r & E & N).
  injection E as <- _. now apply N.
Qed.

(** ** Help text *)
(** The default is added unless the text speaks of a default; one "{}" is replaced by the
    option's letter *)
Theorem C96_default a b default dest : dest <> [] -> (forall c, In c (a ++ b) -> c <> lb /\ c <> rb) ->
  let mentions s := exists x y, SpecsModel.lower s = x ++ txt "default" ++ y in
  (forall s, s = a ++ b -> (mentions s -> addDefault s default dest = Ok s) /\ (~ mentions s -> addDefault s default dest = Ok (s ++ txt " [" ++ default ++ txt "]"))) /\
  (forall s, s = a ++ dest ++ b -> (mentions s -> addDefault (a ++ [lb; rb] ++ b) default dest = Ok s) /\
     (~ mentions s -> addDefault (a ++ [lb; rb] ++ b) default dest = Ok (s ++ txt " [" ++ default ++ txt "]"))) /\
  addDefault (a ++ [lb; rb] ++ b ++ [lb; rb]) default dest = Raise IndexError.
Proof.
  intros D C mentions. assert (La : ~ In lb a /\ ~ In rb a /\ ~ In lb b /\ ~ In rb b).
  { repeat split; intros I; (destruct (C _ (in_or_app _ _ _ (or_introl I))) as [X Y] || destruct (C _ (in_or_app _ _ _ (or_intror I))) as [X Y]); congruence. }
  destruct La as (L1 & L2 & L3 & L4).
  assert (NO : has_sub [lb; rb] (a ++ b) = false).
  { destruct (has_sub [lb; rb] (a ++ b)) eqn:H; [|reflexivity]. apply has_sub_spec in H as (x & y & E). destruct (C lb) as [X _]; [|congruence]. rewrite E. apply in_or_app. right. now left. }
  assert (M : forall s, (mentions s -> has_sub (txt "default") (SpecsModel.lower s) = true) /\ (~ mentions s -> has_sub (txt "default") (SpecsModel.lower s) = false)).
  { intros s. split; intros H; [now apply has_sub_spec|]. destruct (has_sub (txt "default") (SpecsModel.lower s)) eqn:E; [|reflexivity]. exfalso. apply H. now apply has_sub_spec. }
  destruct dest as [|d0 d1] eqn:ED; [congruence|]. rewrite <- ED in *. assert (DM : forall X (u v : X), match dest with [] => u | _ => v end = v) by (intros; now rewrite ED).
  split; [|split].
  - intros s ->. destruct (M (a ++ b)) as [M1 M2]. unfold addDefault. rewrite DM, NO. cbn [bind]. split; intros H; [now rewrite M1|now rewrite M2].
  - intros s ->. destruct (M (a ++ dest ++ b)) as [M1 M2]. unfold addDefault. rewrite DM. rewrite (proj2 (has_sub_spec [lb; rb] (a ++ [lb; rb] ++ b))) by (exists a, b; reflexivity).
    rewrite format_app by auto. change (format1 false dest ([lb; rb] ++ b)) with (bind (format1 true dest b) (fun r => Ok (dest ++ r))). rewrite format_plain by auto. cbn [bind].
    split; intros H; [now rewrite M1|now rewrite M2].
  - unfold addDefault. rewrite DM. rewrite (proj2 (has_sub_spec [lb; rb] (a ++ [lb; rb] ++ b ++ [lb; rb]))) by (exists a, (b ++ [lb; rb]); reflexivity).
    rewrite format_app by auto. change (format1 false dest ([lb; rb] ++ b ++ [lb; rb])) with (bind (format1 true dest (b ++ [lb; rb])) (fun r => Ok (dest ++ r))). rewrite format_app by auto. reflexivity.
Qed.

(** ** Options *)
Section Options.
Variable conv : nat -> text -> res V.
Variable str_of : V -> text.
Notation Step := (step conv str_of).
Notation Steps := (steps conv str_of).

Definition inv (st : ast) : Prop := uniq (decls st) /\ nohelp (decls st).
Lemma fresh_inv : inv fresh.
Proof. split; [intros i j d e c s c' s' X; destruct i; discriminate|intros d c s []]. Qed.
Lemma getattr_keep av st n st' r : getattr conv av st n = (st', r) -> decls st' = decls st /\
  (parsed st' = parsed st \/ parsed st = None) /\ (forall a, r = Ok a -> exists ns, parsed st' = Some ns /\ a = ns_get ns n /\ (parsed st = None -> parse_args conv (decls st) av = Ok ns)) /\
  (parsed st <> None -> st' = st).
Proof.
  unfold getattr. destruct (parsed st) as [ns|] eqn:P.
  - intros E. injection E as <- <-. split; [reflexivity|]. split; [now left|]. split; [|congruence]. intros a E. injection E as <-. exists ns. split; [exact P|]. split; [reflexivity|congruence].
  - destruct (parse_args conv (decls st) av) as [ns|] eqn:Q; intros E; injection E as <- <-; cbn [decls parsed]; (split; [reflexivity|]; split; [now right|]; split; [|congruence]); [|discriminate].
    intros a E. injection E as <-. exists ns. auto.
Qed.
(** the state after a step *)
Lemma step_decls av st o st' r : Step av st o = (st', r) -> inv st -> inv st' /\ (parsed st <> None -> parsed st' = parsed st) /\
  (forall ns, parsed st = None -> parsed st' = Some ns -> decls st' = decls st /\ parse_args conv (decls st) av = Ok ns).
Proof.
  intros E I. assert (ADD : forall d r', add_argument st d = (st', r') -> inv st' /\ (parsed st <> None -> parsed st' = parsed st) /\ (forall ns, parsed st = None -> parsed st' = Some ns -> decls st' = decls st /\ parse_args conv (decls st) av = Ok ns)).
  { intros d r' A. destruct I as [U H]. destruct (add_uniq st d st' r' U H A) as (U' & H' & P & _ & _). split; [now split|]. split; [now rewrite P|]. intros ns Q. rewrite P. congruence. }
  assert (GET : forall n r', getattr conv av st n = (st', r') -> inv st' /\ (parsed st <> None -> parsed st' = parsed st) /\ (forall ns, parsed st = None -> parsed st' = Some ns -> decls st' = decls st /\ parse_args conv (decls st) av = Ok ns)).
  { intros n r' G. destruct (getattr_keep _ _ _ _ _ G) as (D & _ & _ & K). split; [destruct I; split; now rewrite D|]. split; [intros Q; now rewrite (K Q)|].
    intros ns Q Q'. split; [exact D|]. unfold getattr in G. rewrite Q in G. destruct (parse_args conv (decls st) av) as [ns'|] eqn:PA; injection G as <- _; cbn in Q'; congruence. }
  assert (SAME : st' = st -> inv st' /\ (parsed st <> None -> parsed st' = parsed st) /\ (forall ns, parsed st = None -> parsed st' = Some ns -> decls st' = decls st /\ parse_args conv (decls st) av = Ok ns)).
  { intros ->. split; [exact I|]. split; [auto|]. congruence. }
  assert (WL : forall f, with_list (args_of conv av st) f = (st', r) -> exists r', getattr conv av st NArgs = (st', r')).
  { intros f W. unfold with_list, args_of in W. destruct (getattr conv av st NArgs) as [s [[| |]|]]; injection W as <- _; eauto. }
  destruct o as [c l d h|c l h|h|[|]| |n| | |k|]; cbn [step] in E.
  - destruct (addDefault h (str_of d) [c]) as [h'|]; [|injection E as <- _; auto]. destruct (add_argument st (DOpt c l d h')) as [s r'] eqn:A. injection E as -> _. eauto.
  - destruct (add_argument st (DFlag c l h)) as [s r'] eqn:A. injection E as -> _. eauto.
  - destruct (add_argument st (DPos h)) as [s r'] eqn:A. injection E as -> _. eauto.
  - destruct (getattr conv av st (NLetter "h")) as [s [a|]] eqn:G; injection E as -> _; eauto.
  - injection E as <- _. auto.
  - injection E as <- _. auto.
  - destruct (getattr conv av st n) as [s a] eqn:G; injection E as -> _; eauto.
  - apply WL in E as (r' & G). eauto.
  - apply WL in E as (r' & G). eauto.
  - apply WL in E as (r' & G). eauto.
  - apply WL in E as (r' & G). eauto.
Qed.
Lemma steps_app av os1 : forall st os2, Steps av st (os1 ++ os2) =
  let (st1, r1) := Steps av st os1 in let (st2, r2) := Steps av st1 os2 in (st2, r1 ++ r2).
Proof.
  induction os1 as [|o os1 IH]; intros st os2; cbn [app steps]; [destruct (Steps av st os2); reflexivity|].
  destruct (Step av st o) as [s r]. rewrite IH. destruct (Steps av s os1) as [s1 r1]. destruct (Steps av s1 os2) as [s2 r2]. reflexivity.
Qed.
Lemma steps_inv av os : forall st st' rs, Steps av st os = (st', rs) -> inv st -> inv st' /\ length rs = length os /\ (parsed st <> None -> parsed st' = parsed st).
Proof.
  induction os as [|o os IH]; intros st st' rs E I; cbn [steps] in E.
  - injection E as <- <-. auto.
  - destruct (Step av st o) as [s r] eqn:S. destruct (Steps av s os) as [s1 rs1] eqn:T. injection E as <- <-. destruct (step_decls _ _ _ _ _ S I) as (I' & K & _).
    destruct (IH _ _ _ T I') as (I2 & L & K2). split; [exact I2|]. split; [cbn; now rewrite L|]. intros P. rewrite K2; [auto|]. now rewrite K.
Qed.

(** what declaring calls declare *)
Definition is_decl (o : op) : bool := match o with Call4 _ _ _ _ | Call3 _ _ _ | CallText _ => true | _ => false end.
Definition declares (o : op) (d : decl) : Prop :=
  match o, d with
  | Call4 c l v _, DOpt c' l' v' _ => c = c' /\ l = l' /\ v = v'
  | Call3 c l _, DFlag c' l' _ => c = c' /\ l = l'
  | CallText _, DPos _ => True
  | _, _ => False
  end.
Lemma decl_step av st o st' : is_decl o = true -> Step av st o = (st', Ok ONone) -> inv st -> exists d, declares o d /\ decls st' = decls st ++ [d] /\ parsed st' = parsed st.
Proof.
  intros D E [U H]. destruct o as [c l v h|c l h|h|b| |n| | |k|]; try discriminate; cbn [step] in E.
  - destruct (addDefault h (str_of v) [c]) as [h'|]; [|discriminate]. destruct (add_argument st (DOpt c l v h')) as [s r'] eqn:A. destruct r' as [[]|]; [|discriminate]. injection E as ->.
    destruct (add_uniq _ _ _ _ U H A) as (_ & _ & P & _ & Q & _). exists (DOpt c l v h'). split; [cbn; auto|]. auto.
  - destruct (add_argument st (DFlag c l h)) as [s r'] eqn:A. destruct r' as [[]|]; [|discriminate]. injection E as ->.
    destruct (add_uniq _ _ _ _ U H A) as (_ & _ & P & _ & Q & _). exists (DFlag c l h). split; [cbn; auto|]. auto.
  - destruct (add_argument st (DPos h)) as [s r'] eqn:A. destruct r' as [[]|]; [|discriminate]. injection E as ->.
    destruct (add_uniq _ _ _ _ U H A) as (_ & _ & P & _ & Q & _). exists (DPos h). split; [cbn; auto|]. auto.
Qed.
Lemma decl_out av st o st' x : is_decl o = true -> Step av st o = (st', Ok x) -> x = ONone.
Proof.
  intros D E. destruct o as [c l v h|c l h|h|b| |n| | |k|]; try discriminate; cbn [step] in E.
  - destruct (addDefault h (str_of v) [c]) as [h'|]; [|discriminate]. destruct (add_argument st (DOpt c l v h')) as [s [[]|]]; [|discriminate]. now injection E.
  - destruct (add_argument st (DFlag c l h)) as [s [[]|]]; [|discriminate]. now injection E.
  - destruct (add_argument st (DPos h)) as [s [[]|]]; [|discriminate]. now injection E.
Qed.
(** [calls] are all accepted *)
Definition accepted (calls : list op) : Prop :=
  forallb is_decl calls = true /\ forall av st rs, Steps av fresh calls = (st, rs) -> Forall (fun r => exists x, r = Ok x) rs.
Lemma decls_steps av calls : forall st st' rs, forallb is_decl calls = true -> Steps av st calls = (st', rs) -> Forall (fun r => exists x, r = Ok x) rs -> inv st ->
  exists ds, decls st' = decls st ++ ds /\ Forall2 declares calls ds /\ parsed st' = parsed st.
Proof.
  induction calls as [|o os IH]; intros st st' rs D E F I; cbn [steps] in E.
  - injection E as <- <-. exists []. split; [now rewrite app_nil_r|]. split; [constructor|reflexivity].
  - cbn [forallb] in D. apply andb_true_iff in D as [D1 D2]. destruct (Step av st o) as [s r] eqn:S. destruct (Steps av s os) as [s1 rs1] eqn:T. injection E as <- <-.
    inversion F as [|? ? [x ->] F2]; subst. rewrite (decl_out _ _ _ _ _ D1 S) in S. destruct (decl_step _ _ _ _ D1 S I) as (d & Dd & Ds & Ps).
    destruct (step_decls _ _ _ _ _ S I) as (I' & _). destruct (IH _ _ _ D2 T F2 I') as (ds & E1 & E2 & E3). exists (d :: ds).
    split; [now rewrite E1, Ds, <- app_assoc|]. split; [now constructor|]. now rewrite E3.
Qed.
Lemma accepted_state av calls : accepted calls -> exists st rs ds, Steps av fresh calls = (st, rs) /\ decls st = ds /\ Forall2 declares calls ds /\ parsed st = None /\ inv st.
Proof.
  intros [D F]. destruct (Steps av fresh calls) as [st rs] eqn:E. destruct (decls_steps av calls fresh st rs D E (F av st rs E) fresh_inv) as (ds & A & B & C).
  exists st, rs, ds. split; [reflexivity|]. split; [exact A|]. split; [exact B|]. split; [exact C|]. exact (proj1 (steps_inv _ _ _ _ _ E fresh_inv)).
Qed.
Lemma F2_in {A B} (R : A -> B -> Prop) l l' x : Forall2 R l l' -> In x l -> exists y, In y l' /\ R x y.
Proof. induction 1 as [|a b l l' H F IH]; intros I; [destruct I|]. destruct I as [<-|I]; [exists b; split; [now left|exact H]|]. destruct (IH I) as (y & J & K). exists y. split; [now right|exact K]. Qed.
Lemma F2_in' {A B} (R : A -> B -> Prop) l l' y : Forall2 R l l' -> In y l' -> exists x, In x l /\ R x y.
Proof. induction 1 as [|a b l l' H F IH]; intros I; [destruct I|]. destruct I as [<-|I]; [exists a; split; [now left|exact H]|]. destruct (IH I) as (x & J & K). exists x. split; [now right|exact K]. Qed.

(** what the constructor of the default's type makes of a text: text itself, for a bool
    whether there is any, else what [conv] says *)
Definition converted (default : V) (s : text) (v : V) : Prop :=
  match default with VBool _ => v = VBool (negb (Nat.eqb (length s) 0)) | VStr _ => v = VStr s | VOther n => conv n s = Ok v end.
(** the value an option must have *)
Definition mine (c : ascii) (long : text) (t : tok) : bool := match t with TShort x _ => Ascii.eqb x c | TLong s _ => if list_eq_dec ascii_dec s long then true else false end.
(** After accepted declarations and a command line argparse accepts, an option with default
    has the last value given, converted, or else the default; a flag tells whether it was
    given; other letters are None.  This is what the first access gives and every later
    one *)
Theorem C96_options calls av more st rs c a k : accepted calls -> Steps av fresh (calls ++ more) = (st, rs) ->
  nth_error more k = Some (Get (NLetter c)) -> nth_error rs (length calls + k) = Some (Ok (OAttr a)) ->
  forallb (fun o => negb (is_decl o)) more = true ->
  (forall long default help, In (Call4 c long default help) calls ->
     match rev (filter (mine c long) (toks av)) with
     | [] => a = AVal default
     | t :: _ => exists s v, (t = TShort c (Some s) \/ t = TLong long (Some s)) /\ converted default s v /\ a = AVal v
     end) /\
  (forall long help, In (Call3 c long help) calls -> a = AVal (VBool (negb (Nat.eqb (length (filter (mine c long) (toks av))) 0)))) /\
  ((forall long default help, ~ In (Call4 c long default help) calls) -> (forall long help, ~ In (Call3 c long help) calls) -> a = ANone).
Proof.
  intros ACC E K R ND. destruct (accepted_state av calls ACC) as (st0 & rs0 & ds & S0 & DS & F2 & PN & IV). rewrite steps_app, S0 in E.
  destruct (Steps av st0 more) as [st2 rs2] eqn:S2. injection E as <- <-.
  assert (L0 : length rs0 = length calls) by (apply (steps_inv _ _ _ _ _ S0 fresh_inv)).
  rewrite nth_error_app2 in R by lia. replace (length calls + k - length rs0) with k in R by lia.
  assert (NS : exists ns, parse_args conv ds av = Ok ns /\ a = ns_get ns (NLetter c)).
  { assert (G : forall more st st2 rs2 k, Steps av st more = (st2, rs2) -> inv st -> decls st = ds -> (forall ns, parsed st = Some ns -> parse_args conv ds av = Ok ns) ->
      forallb (fun o => negb (is_decl o)) more = true -> nth_error more k = Some (Get (NLetter c)) -> nth_error rs2 k = Some (Ok (OAttr a)) -> exists ns, parse_args conv ds av = Ok ns /\ a = ns_get ns (NLetter c)).
    { clear - conv. induction more as [|o more IH]; intros st st2 rs2 k S I D P ND K R; [destruct k; discriminate|]. cbn [steps] in S. destruct (Step av st o) as [s r] eqn:So.
      destruct (Steps av s more) as [s1 rs1] eqn:T. injection S as <- <-. cbn [forallb] in ND. apply andb_true_iff in ND as [N1 N2]. destruct k as [|k].
      - cbn in K, R. injection K as ->. injection R as ->. cbn [step] in So. destruct (getattr conv av st (NLetter c)) as [s' [x|]] eqn:G; [|discriminate]. cbn in So. injection So as -> ->.
        destruct (getattr_keep _ _ _ _ _ G) as (_ & Q & W & _). destruct (W a eq_refl) as (ns & E1 & E2 & E3). exists ns. split; [|exact E2]. rewrite <- D. destruct (parsed st) as [ns'|] eqn:Ps.
        + destruct Q as [Q|Q]; [|congruence]. rewrite Q in E1. injection E1 as ->. rewrite D. now apply P.
        + now apply E3.
      - cbn [nth_error] in K, R. destruct (step_decls _ _ _ _ _ So I) as (I' & P1 & P2).
        assert (D' : decls s = ds).
        { rewrite <- D. destruct o as [c0 l d h|c0 l h|h|[|]| |n| | |m|]; cbn in N1; try discriminate; cbn [step] in So.
          - destruct (getattr conv av st (NLetter "h")) as [s' [x|]] eqn:G; injection So as <- _; apply (getattr_keep _ _ _ _ _ G).
          - now injection So as <- _.
          - now injection So as <- _.
          - destruct (getattr conv av st n) as [s' x] eqn:G; injection So as <- _; apply (getattr_keep _ _ _ _ _ G).
          - unfold with_list, args_of in So; destruct (getattr conv av st NArgs) as [s' [[| |]|]] eqn:G; injection So as <- _; apply (getattr_keep _ _ _ _ _ G).
          - unfold with_list, args_of in So; destruct (getattr conv av st NArgs) as [s' [[| |]|]] eqn:G; injection So as <- _; apply (getattr_keep _ _ _ _ _ G).
          - unfold with_list, args_of in So; destruct (getattr conv av st NArgs) as [s' [[| |]|]] eqn:G; injection So as <- _; apply (getattr_keep _ _ _ _ _ G).
          - unfold with_list, args_of in So; destruct (getattr conv av st NArgs) as [s' [[| |]|]] eqn:G; injection So as <- _; apply (getattr_keep _ _ _ _ _ G). }
        apply (IH s s1 rs1 k T I' D'); auto. intros ns Q. destruct (parsed st) as [ns'|] eqn:Ps; [rewrite P1 in Q by congruence; now apply P|]. rewrite <- D. now apply P2. }
    apply (G more st0 st2 rs2 k S2 IV DS); auto. rewrite PN. discriminate. }
  destruct NS as (ns & PA & ->). clear S2 R. unfold parse_args in PA. destruct (parse_toks conv ds (toks av) (defaults ds)) as [l|] eqn:PT; [|discriminate]. cbn [bind] in PA.
  assert (OP : opts ns = l) by (destruct (has_pos ds); [injection PA as <-; reflexivity|destruct (posl av); [injection PA as <-; reflexivity|discriminate]]).
  destruct IV as [U H]. rewrite DS in *. cbn [ns_get]. rewrite OP. split; [|split].
  - intros long default help I. destruct (F2_in _ _ _ _ F2 I) as (d & Id & Dd). destruct d as [c' l' v' h'|c' l' h'|h']; cbn in Dd; try contradiction. destruct Dd as (<- & <- & <-).
    destruct (parse_toks_spec conv ds (toks av) (defaults ds) l _ c long default U Id eq_refl (lookup_defaults ds _ c long U Id eq_refl) PT) as (v & Lv & Vv). rewrite Lv. unfold value_of in Vv.
    replace (filter (mine c long) (toks av)) with (filter (fun t => is_for t c long) (toks av)) by (apply filter_ext; intros [x y|x y]; reflexivity).
    destruct (rev (filter (fun t => is_for t c long) (toks av))) as [|t r] eqn:Er; [now subst|]. destruct Vv as (s & X & Y). exists s, v.
    assert (It : is_for t c long = true).
    { assert (I1 : In t (filter (fun t => is_for t c long) (toks av))) by (apply in_rev; rewrite Er; now left). now apply filter_In in I1. }
    split.
    { destruct t as [x a0|x a0]; cbn in X, It; subst a0; [left|right]; f_equal; [now apply Ascii.eqb_eq|]. unfold teqb in It. destruct (list_eq_dec ascii_dec x long); [assumption|discriminate]. } split; [|reflexivity]. destruct default as [b|d|n]; cbn in Y |- *; [injection Y as <-; destruct s; reflexivity|injection Y as <-; reflexivity|exact Y].
  - intros long help I. destruct (F2_in _ _ _ _ F2 I) as (d & Id & Dd). destruct d as [c' l' v' h'|c' l' h'|h']; cbn in Dd; try contradiction. destruct Dd as (<- & <-).
    destruct (parse_toks_spec conv ds (toks av) (defaults ds) l _ c long (VBool false) U Id eq_refl (lookup_defaults ds _ c long U Id eq_refl) PT) as (v & Lv & Vv). rewrite Lv. unfold value_of in Vv.
    replace (filter (mine c long) (toks av)) with (filter (fun t => is_for t c long) (toks av)) by (apply filter_ext; intros [x y|x y]; reflexivity).
    rewrite <- rev_length. destruct (rev (filter (fun t => is_for t c long) (toks av))) as [|t r]; [now subst|]. destruct Vv as (_ & ->). reflexivity.
  - intros N4 N3. rewrite (parse_toks_none conv ds (toks av) (defaults ds) l c); [reflexivity| |exact PT]. apply lookup_defaults_none. intros d s Id O.
    destruct (F2_in' _ _ _ _ F2 Id) as (o & Io & Do). destruct d as [c' l' v' h'|c' l' h'|h']; try discriminate; injection O as -> ->; destruct o; cbn in Do; try contradiction.
    + destruct Do as (-> & -> & ->). now apply (N4 _ _ _ Io).
    + destruct Do as (-> & ->). now apply (N3 _ _ Io).
Qed.
(** An attribute once read never changes, whatever is done with the object *)
Theorem C96_constant os av st rs i j n a b : Steps av fresh os = (st, rs) -> nth_error os i = Some (Get n) -> nth_error os j = Some (Get n) ->
  nth_error rs i = Some (Ok (OAttr a)) -> nth_error rs j = Some (Ok (OAttr b)) -> a = b.
Proof.
  assert (KEY : forall os st st' rs k n a, Steps av st os = (st', rs) -> inv st -> nth_error os k = Some (Get n) -> nth_error rs k = Some (Ok (OAttr a)) -> exists ns, parsed st' = Some ns /\ a = ns_get ns n).
  { clear. induction os as [|o os IH]; intros st st' rs k n a S I K R; [destruct k; discriminate|]. cbn [steps] in S. destruct (Step av st o) as [s r] eqn:So.
    destruct (Steps av s os) as [s1 rs1] eqn:T. injection S as <- <-. destruct (step_decls _ _ _ _ _ So I) as (I' & _). destruct k as [|k]; [|cbn in K, R; eapply IH; eauto].
    cbn in K, R. injection K as ->. injection R as ->. cbn [step] in So. destruct (getattr conv av st n) as [s' [x|]] eqn:G; [|discriminate]. cbn in So. injection So as -> ->.
    destruct (getattr_keep _ _ _ _ _ G) as (_ & _ & W & _). destruct (W a eq_refl) as (ns & E1 & E2 & _). exists ns. split; [|exact E2].
    destruct (steps_inv _ _ _ _ _ T I') as (_ & _ & Q). rewrite Q; congruence. }
  intros S Ki Kj Ri Rj. destruct (KEY _ _ _ _ _ _ _ S fresh_inv Ki Ri) as (n1 & E1 & ->). destruct (KEY _ _ _ _ _ _ _ S fresh_inv Kj Rj) as (n2 & E2 & ->). congruence.
Qed.

(** ** Positional arguments *)
Lemma pos_ns ds av ns : parse_args conv ds av = Ok ns -> pos ns = if has_pos ds then Some (posl av) else None.
Proof. unfold parse_args. destruct (parse_toks conv ds (toks av) (defaults ds)); [|discriminate]. cbn. destruct (has_pos ds); [intros E; now injection E as <-|]. destruct (posl av); [intros E; now injection E as <-|discriminate]. Qed.
Lemma has_pos_calls calls ds : Forall2 declares calls ds -> has_pos ds = existsb (fun o => match o with CallText _ => true | _ => false end) calls.
Proof. induction 1 as [|o d calls ds H F IH]; [reflexivity|]. cbn. rewrite <- IH. destruct o, d; cbn in H; try contradiction; reflexivity. Qed.
(** If positional arguments were declared, the object is their sequence; if not, its
    length, truth value and items are a TypeError.  In both cases if argparse accepts the
    command line *)
Theorem C96_sequence calls av : accepted calls -> forall st rs, Steps av fresh calls = (st, rs) -> forall ns, parse_args conv (decls st) av = Ok ns ->
  ((exists h, In (CallText h) calls) ->
     snd (Step av st Len) = Ok (ONat (length (posl av))) /\ snd (Step av st Iter) = Ok (OList (posl av)) /\
     snd (Step av st Truth) = Ok (OBool (negb (Nat.eqb (length (posl av)) 0))) /\
     forall k, snd (Step av st (Item k)) = match nth_error (posl av) k with Some s => Ok (OText s) | None => Raise IndexError end) /\
  ((forall h, ~ In (CallText h) calls) -> forall o, In o [Len; Iter; Truth] \/ (exists k, o = Item k) -> snd (Step av st o) = Raise TypeError).
Proof.
  intros ACC st rs S ns PA. destruct (accepted_state av calls ACC) as (st0 & rs0 & ds & S0 & DS & F2 & PN & IV). rewrite S in S0. injection S0 as <- <-. rewrite DS in PA.
  assert (HP := has_pos_calls _ _ F2). assert (PO := pos_ns _ _ _ PA).
  assert (G : getattr conv av st NArgs = (mkAst ds (Some ns) (Datatypes.S (parses st)), Ok (match pos ns with Some l => APos l | None => ANone end))) by (unfold getattr; now rewrite PN, DS, PA).
  split.
  - intros (h & I). assert (H : has_pos ds = true) by (rewrite HP; apply existsb_exists; now exists (CallText h)). rewrite H in PO. rewrite PO in G.
    cbn [step]. unfold args_of. rewrite G. cbn [with_list snd]. split; [reflexivity|]. split; [reflexivity|]. split; [destruct (posl av); reflexivity|]. intros k. reflexivity.
  - intros N. assert (H : has_pos ds = false).
    { rewrite HP. destruct (existsb _ calls) eqn:X; [|reflexivity]. apply existsb_exists in X as (o & I & X). destruct o; try discriminate. destruct (N _ I). }
    rewrite H in PO. rewrite PO in G. intros o [[<-|[<-|[<-|[]]]]|(k & ->)]; cbn [step]; unfold args_of; rewrite G; reflexivity.
Qed.

(** ** Running a script *)
(** A callable is run only if its module is the script itself, the command line is accepted
    and asks for no help; an imported module leaves the command line alone *)
Theorem C96_run os av st rs main st' r : Steps av fresh os = (st, rs) -> Step av st (CallFun main) = (st', r) ->
  (main = false -> r = Ok ONone /\ st' = st) /\
  (main = true -> r = Ok ORun \/ (exists e, r = Raise e)) /\
  (r = Ok ORun -> Forall (fun t => match t with TShort c _ => c <> "h"%char | TLong s _ => s <> txt "help" end) (toks av)).
Proof.
  intros S E. destruct (steps_inv _ _ _ _ _ S fresh_inv) as (I & _ & _).
  assert (KEY : forall os st st' rs, Steps av st os = (st', rs) -> inv st -> (forall ns, parsed st = Some ns -> exists ds, nohelp ds /\ parse_args conv ds av = Ok ns) -> forall ns, parsed st' = Some ns -> exists ds, nohelp ds /\ parse_args conv ds av = Ok ns).
  { clear. induction os as [|o os IH]; intros st st' rs S I P ns Q; cbn [steps] in S; [injection S as <- <-; auto|]. destruct (Step av st o) as [s r] eqn:So.
    destruct (Steps av s os) as [s1 rs1] eqn:T. injection S as <- <-. destruct (step_decls _ _ _ _ _ So I) as (I' & P1 & P2). apply (IH s s1 rs1 T I'); auto. intros ns' Q'. destruct (parsed st) as [n0|] eqn:Ps.
    - rewrite P1 in Q' by congruence. auto.
    - destruct (P2 ns' eq_refl Q') as (D & PA). exists (decls st). split; [apply I|exact PA]. }
  assert (HN : forall ds ns, nohelp ds -> parse_args conv ds av = Ok ns -> ns_get ns (NLetter "h") = ANone /\ Forall (fun t => is_help t = false) (toks av)).
  { intros ds ns H PA. unfold parse_args in PA. destruct (parse_toks conv ds (toks av) (defaults ds)) as [l|] eqn:PT; [|discriminate]. cbn [bind] in PA.
    assert (OP : opts ns = l) by (destruct (has_pos ds); [injection PA as <-; reflexivity|destruct (posl av); [injection PA as <-; reflexivity|discriminate]]).
    split; [|eapply parse_no_help; exact PT]. cbn. rewrite OP. rewrite (parse_toks_none conv ds (toks av) (defaults ds) l "h"%char); [reflexivity| |exact PT].
    apply lookup_defaults_none. intros d s J O. destruct (H d _ _ J O) as [X _]. congruence. }
  destruct main; cbn [step] in E.
  - destruct (getattr conv av st (NLetter "h")) as [s [a|e]] eqn:G; injection E as <- <-; [|split; [discriminate|split; [intros _; right; eauto|discriminate]]].
    destruct (getattr_keep _ _ _ _ _ G) as (_ & Q & W & _). destruct (W a eq_refl) as (ns & E1 & E2 & E3).
    assert (X : exists ds, nohelp ds /\ parse_args conv ds av = Ok ns).
    { destruct (parsed st) as [n0|] eqn:Ps; [|exists (decls st); split; [apply I|auto]]. destruct Q as [Q|Q]; [|discriminate]. rewrite E1 in Q. injection Q as ->.
      apply (KEY os fresh st rs S fresh_inv); [discriminate|exact Ps]. }
    destruct X as (ds & H & PA). destruct (HN ds ns H PA) as [HA HF]. subst a. rewrite HA. cbn [truth]. split; [discriminate|]. split; [now left|]. intros _.
    eapply Forall_impl; [|exact HF]. intros [x y|x y] T; unfold is_help in T; cbn in T; [intros ->; discriminate|]. intros ->. discriminate.
  - injection E as <- <-. split; [auto|]. split; discriminate.
Qed.
End Options.

(** Without declared positional arguments the object has no length, though the default of
    an empty list is meant to give it length zero *)
Theorem C96_len_refuted : ~ (forall conv str_of av calls st rs, accepted conv str_of calls -> steps conv str_of av fresh calls = (st, rs) -> posl av = [] ->
  (exists ns, parse_args conv (decls st) av = Ok ns) -> exists n, snd (step conv str_of av st Len) = Ok (ONat n)).
Proof.
  intros H. destruct (H (fun _ _ => Raise ValueError) (fun _ => []) (mkArgv [] []) [] fresh [] ltac:(split; [reflexivity|intros av st rs E; injection E as <- <-; constructor]) eq_refl eq_refl (ex_intro _ _ eq_refl)) as (n & E).
  discriminate.
Qed.
(** An option declared after an attribute was read is not seen *)
Theorem C96_late_refuted : ~ (forall conv str_of av c long help os st rs, steps conv str_of av fresh (os ++ [Call3 c long help; Get (NLetter c)]) = (st, rs) ->
  Forall (fun r => exists x, r = Ok x) rs -> last rs (Ok ONone) <> Ok (OAttr ANone)).
Proof.
  intros H. apply (H (fun _ _ => Raise ValueError) (fun _ => []) (mkArgv [] []) "v"%char (txt "verbose") [] [Get NOther] (mkAst [DFlag "v" (txt "verbose") []] (Some (mkNs [] None)) 1)
    [Ok (OAttr ANone); Ok ONone; Ok (OAttr ANone)]); [reflexivity| |reflexivity]. repeat constructor; eauto.
Qed.
(** An option with a bool as default cannot be switched off by "False" *)
Theorem C96_bool_refuted : ~ (forall conv default s v, convert conv (VBool default) s = Ok v -> s = txt "False" -> v = VBool false).
Proof. intros H. specialize (H (fun _ _ => Raise ValueError) true (txt "False") (VBool true) eq_refl eq_refl). discriminate. Qed.

Definition ex_calls : list op := [Call4 "d" (txt "dims") (VStr []) (txt "Dimensions"); Call4 "N" (txt "N-correlates") (VOther 0) (txt "Pairs for -{}"); Call3 "i" (txt "in-pop") (txt "Only pop"); CallText (txt "<file>")].
Definition ex_conv (n : nat) (s : text) : res V := match s with [] => Raise ValueError | _ => Ok (VOther (length s)) end.
Definition ex_str (v : V) : text := match v with VStr s => s | _ => txt "0" end.
Definition ex_av : argv := mkArgv [TShort "N" (Some (txt "a")); TShort "i" None; TLong (txt "N-correlates") (Some (txt "abc"))] [txt "f"; txt "x"].
Example C96_nonvacuous :
  accepted ex_conv ex_str ex_calls /\
  snd (steps ex_conv ex_str ex_av fresh (ex_calls ++ [Get (NLetter "N"); Get (NLetter "d"); Get (NLetter "i"); Get (NLetter "s"); Len; Item 1; CallFun true])) =
    [Ok ONone; Ok ONone; Ok ONone; Ok ONone; Ok (OAttr (AVal (VOther 3))); Ok (OAttr (AVal (VStr []))); Ok (OAttr (AVal (VBool true))); Ok (OAttr ANone); Ok (ONat 2); Ok (OText (txt "x")); Ok ORun] /\
  snd (steps ex_conv ex_str (mkArgv [TShort "h" None] []) fresh (ex_calls ++ [CallFun true])) = [Ok ONone; Ok ONone; Ok ONone; Ok ONone; Raise UserError] /\
  addDefault (txt "Pairs for -{}") (txt "0") (txt "N") = Ok (txt "Pairs for -N [0]") /\
  describe (fun s => s) (nl :: txt "  One" ++ [nl] ++ txt "  two." ++ [nl; nl] ++ txt "  Three." ++ [nl] ++ txt "  ") = (Some (txt "One two."), Some (txt "Three.")).
Proof.
  split; [split; [reflexivity|intros av st rs E; vm_compute in E; injection E as <- <-; repeat constructor; eauto]|]. repeat split.
Qed.

Print Assumptions C96_text.
Print Assumptions C96_blank_lines_refuted.
Print Assumptions C96_default.
Print Assumptions C96_options.
Print Assumptions C96_constant.
Print Assumptions C96_sequence.
Print Assumptions C96_run.
Print Assumptions C96_len_refuted.
Print Assumptions C96_late_refuted.
Print Assumptions C96_bool_refuted.

(** * Properties of reading a log: C64, C65, C66 *)
From Coq Require Import Bool Arith Ascii String List Lia.
From Verif Require Import Flt Py LogModel LogProofs.
Import ListNotations.
Local Open Scope nat_scope.

(** ** what the claims are stated with *)
Definition lit : string -> text := list_ascii_of_string.
Definition white (c : ascii) : Prop := In c (map ascii_of_nat [9; 10; 11; 12; 13; 28; 29; 30; 31; 32]).
Definition letters : text := lit "abcdefghijklmnopqrstuvwxyzABCDEFGHIJKLMNOPQRSTUVWXYZ".
Definition digits : text := lit "0123456789".
Definition spaces (s : text) : Prop := Forall white s.
Definition nospace (s : text) : Prop := Forall (fun c => ~ white c) s.
(** a name: a letter, then letters, digits, underscores *)
Definition a_name (n : text) : Prop :=
  exists c r, n = c :: r /\ In c letters /\ Forall (fun c => In c (letters ++ digits ++ lit "_")) r.
Definition numchars (s : text) : Prop := Forall (fun c => In c (digits ++ lit ".eE+-")) s.
(** a number: perhaps a sign, a digit, then digits, points, e, E, signs *)
Definition a_number (v : text) : Prop :=
  exists sg d r, v = sg ++ d :: r /\ (sg = [] \/ sg = lit "+" \/ sg = lit "-") /\ In d digits /\ numchars r.
Definition some_stars (s : text) : Prop := Forall (eq "*"%char) s.
(** neither a digit first, nor a sign and a digit *)
Definition not_number (v : text) : Prop :=
  v <> [] /\ (forall d r, v = d :: r -> ~ In d digits) /\ (forall s d r, v = s :: d :: r -> In s (lit "+-") -> ~ In d digits).
(** any other word of a line *)
Definition other_word (w : text) : Prop :=
  w <> [] /\ nospace w /\
  (~ In "="%char w \/
   (exists n v, w = n ++ lit "=" ++ v /\ Forall (fun c => In c (letters ++ digits ++ lit "_")) n /\ not_number v) \/
   (exists c r, w = c :: r /\ ~ In c letters)).
Definition an_item (t : tok) : Prop :=
  match t with
  | TPar n v st _ => a_name n /\ a_number v /\ some_stars st
  | TWord w => other_word w
  end.
Definition starts_white (s : text) : Prop := s = [] \/ exists c r, s = c :: r /\ white c.
(** a line made of items with white space between them *)
Inductive a_line : list tok -> text -> Prop :=
| al_nil : forall trail, spaces trail -> a_line [] trail
| al_cons : forall gap t ts rest, spaces gap -> an_item t -> a_line ts rest -> starts_white rest ->
    a_line (t :: ts) (gap ++ tok_text t ++ rest).
(** a log: lines without an SSE; entries, ended by a blank line or the end *)
Definition no_sse (s : text) : Prop := forall a c b, s = a ++ lit "SSE=" ++ c :: b -> ~ In c (digits ++ lit ".eE+-").
Definition an_entry {F} (tofloat : text -> option F) (e : F * list found) (ls : list text) : Prop :=
  exists pre num rest ts tss more, ls = (pre ++ lit "SSE=" ++ num ++ rest) :: more /\
    (forall a b, pre <> a ++ lit "SSE=" ++ b) /\ numchars num /\ num <> [] /\ tofloat num = Some (fst e) /\
    a_line ts rest /\ (forall c r, rest = c :: r -> ~ In c (digits ++ lit ".eE+-")) /\
    Forall2 (fun ts l => a_line ts l /\ ts <> []) tss more /\
    snd e = params ts ++ flat_map params tss /\ NoDup (map fst (snd e)).
Inductive a_log {F} (tofloat : text -> option F) : list (F * list found) -> list text -> Prop :=
| lg_nil : a_log tofloat [] []
| lg_noise : forall l es lines, no_sse l -> a_log tofloat es lines -> a_log tofloat es (l :: lines)
| lg_last : forall e ls, an_entry tofloat e ls -> a_log tofloat [e] ls
| lg_entry : forall e ls blank es lines, an_entry tofloat e ls -> spaces blank -> a_log tofloat es lines ->
    a_log tofloat (e :: es) (ls ++ blank :: lines).
Definition starts (p l : text) : Prop := exists g r, spaces g /\ l = g ++ p ++ r.
Definition no_table (lines : list text) : Prop := Forall (fun l => ~ starts (lit "Final population") l) lines.

(** ** the model's classes *)
Lemma existsb_in : forall c l, existsb (Ascii.eqb c) l = true <-> In c l.
Proof.
  intros c l. rewrite existsb_exists. split; [intros (x & I & E); apply Ascii.eqb_eq in E; now subst|intros I; exists c; split; auto; apply Ascii.eqb_refl].
Qed.
Ltac cls := let c := fresh "c" in intros c; rewrite <- existsb_in; revert c; intros [[] [] [] [] [] [] [] []]; vm_compute; tauto.
Lemma space_iff : forall c, is_space c = true <-> white c. Proof. unfold white. cls. Qed.
Lemma dig_iff : forall c, is_dig c = true <-> In c digits. Proof. cls. Qed.
Lemma letter_iff : forall c, is_letter c = true <-> In c letters. Proof. cls. Qed.
Lemma wordc_iff : forall c, is_wordc c = true <-> In c (letters ++ digits ++ lit "_"). Proof. cls. Qed.
Lemma num_iff : forall c, is_num c = true <-> In c (digits ++ lit ".eE+-"). Proof. cls. Qed.
Lemma sign_iff : forall c, is_sign c = true <-> In c (lit "+-"). Proof. cls. Qed.
Lemma star_iff : forall c, is_star c = true <-> "*"%char = c.
Proof. intros c. unfold is_star. rewrite Ascii.eqb_eq. split; congruence. Qed.
Lemma neg_iff : forall (b : bool) (P : Prop), (b = true <-> P) -> (b = false <-> ~ P).
Proof. intros [] P H; split; intros X; try congruence; [exfalso; tauto|intros Y; apply H in Y; discriminate]. Qed.
Lemma all_iff : forall p P s, (forall c : ascii, p c = true <-> P c) -> (all p s <-> Forall P s).
Proof. intros p P s H. unfold all. split; apply Forall_impl; intros c; apply H. Qed.
Lemma spaces_iff : forall s, all is_space s <-> spaces s. Proof. intros. apply all_iff, space_iff. Qed.
Lemma nospace_iff : forall s, none is_space s <-> nospace s.
Proof. intros. unfold none, nospace. split; apply Forall_impl; intros c; apply neg_iff, space_iff. Qed.
Lemma num_all : forall s, all is_num s <-> numchars s. Proof. intros. apply all_iff, num_iff. Qed.
Lemma name_iff : forall n, a_name n <-> ok_name n.
Proof.
  intros n. unfold a_name, ok_name. split; intros (c & r & E & L & W); exists c, r; (split; [auto|]; split; [now apply letter_iff|]);
    apply (all_iff is_wordc _ r wordc_iff); exact W.
Qed.
Lemma number_ok : forall v, a_number v -> ok_val v.
Proof.
  intros v (sg & d & r & E & S & D & N). exists sg, d, r. split; auto. split; [|split; [now apply dig_iff|now apply num_all]].
  destruct S as [->|[->| ->]]; [now left|right; eexists; split; reflexivity|right; eexists; split; reflexivity].
Qed.
Lemma stars_ok : forall s, some_stars s -> all is_star s.
Proof. intros s. apply Forall_impl. intros c. apply star_iff. Qed.
Lemma not_number_bad : forall v, not_number v -> bad_val v /\ v <> [].
Proof.
  intros v (N & A & B). split; auto. destruct v as [|c v]; [congruence|]. cbn [bad_val]. destruct (is_sign c) eqn:S.
  - destruct v as [|d v]; auto. apply (neg_iff _ _ (dig_iff d)). apply (B c d v); auto. now apply sign_iff.
  - apply (neg_iff _ _ (dig_iff c)). eapply A; eauto.
Qed.
Lemma item_ok : forall t, an_item t -> ok_tok t.
Proof.
  intros [n v st gt|w]; cbn [an_item ok_tok].
  - intros (A & B & C). split; [now apply name_iff|]. split; [now apply number_ok|now apply stars_ok].
  - intros (N & S & K). split; auto. split; [now apply nospace_iff|]. destruct K as [K|[(n & v & E & W & B)|(c & r & E & L)]].
    + now left.
    + right. left. exists n, v. apply not_number_bad in B. split; [exact E|]. split; [now apply (all_iff is_wordc _ n wordc_iff)|exact B].
    + right. right. exists c, r. split; auto. now apply (neg_iff _ _ (letter_iff c)).
Qed.
Lemma starts_white_ok : forall s, starts_white s -> blank_start s.
Proof. intros s [E|(c & r & E & W)]; [now left|right; exists c, r; split; auto; now apply space_iff]. Qed.
Lemma a_line_ok : forall ts s, a_line ts s -> line_of ts s.
Proof.
  intros ts s H. induction H as [tr A|gap t ts rest A I H IH S].
  - constructor. now apply spaces_iff.
  - constructor; auto; [now apply spaces_iff|now apply item_ok|now apply starts_white_ok].
Qed.
Lemma no_sse_ok : forall l, no_sse l -> sse_free l.
Proof. intros l H a c b E. apply (neg_iff _ _ (num_iff c)). now apply (H a c b). Qed.
Lemma starts_iff : forall p l, starts p l <-> begins p l.
Proof. intros p l. unfold starts, begins. split; intros (g & r & G & E); exists g, r; split; auto; now apply spaces_iff. Qed.

Section L.
Context {F : Type}.
Variable tofloat : text -> option F.
Lemma entry_ok : forall (e : F * list found) ls lines, an_entry tofloat e ls -> lines = [] \/ (exists b more, lines = b :: more /\ spaces b) ->
  phase1 tofloat None (ls ++ lines) = yield1 e (phase1 tofloat None (tl lines)).
Proof.
  intros [x ps] ls lines (pre & num & rest & ts & tss & more & -> & P & N1 & N2 & T & L & R & M & E & D) B. cbn [fst snd] in *. cbn [app].
  rewrite (phase1_entry tofloat pre num rest ts tss more x); auto.
  - rewrite <- E. now rewrite tset_all_nil.
  - now apply num_all.
  - now apply a_line_ok.
  - destruct rest as [|c r]; [now left|]. right. exists c, r. split; auto. apply (neg_iff _ _ (num_iff c)). eapply R. reflexivity.
  - revert M. generalize more as m. clear. intros m M. induction M as [|ts l tss m [A1 A2] M IH]; constructor; auto. split; auto. now apply a_line_ok.
  - destruct B as [->|(b & q & -> & S)]; [now left|]. right. exists b, q. split; auto. now apply spaces_iff.
Qed.
Lemma log_ok : forall es lines, a_log tofloat es lines -> phase1 tofloat None lines = (es, Finished).
Proof.
  intros es lines H. induction H as [|l es lines N H IH|e ls E|e ls b es lines E B H IH].
  - reflexivity.
  - cbn [phase1]. rewrite sse_none by now apply no_sse_ok. exact IH.
  - rewrite <- (app_nil_r ls). rewrite (entry_ok e ls []); auto.
  - rewrite (entry_ok e ls (b :: lines)); auto; [|right; eauto]. cbn [tl]. rewrite IH. reflexivity.
Qed.
End L.

(** ** C64 *)
(** every entry of a log is read, in order, with its SSE and all its parameters *)
Theorem C64_log : forall F (tofloat : text -> option F) es lines, a_log tofloat es lines -> no_table lines ->
  filerator tofloat lines = (es, Finished).
Proof.
  intros F tofloat es lines H N. unfold filerator. rewrite (log_ok tofloat es lines H). rewrite table0_none.
  - cbn [columns]. now rewrite app_nil_r.
  - eapply Forall_impl; [|exact N]. cbn. intros l A B. apply A. now apply starts_iff.
Qed.
Print Assumptions C64_log.
(** reading any file comes to an end *)
Theorem C64_ends : forall F (tofloat : text -> option F) lines, snd (filerator tofloat lines) <> OutOfFuel.
Proof.
  intros F tofloat lines. unfold filerator. assert (A := phase1_fuel tofloat lines None). destruct (phase1 tofloat None lines) as [es f]. cbn [snd] in A.
  destruct f; auto. destruct (table0 lines) as [[SSEs ps]|]; [|discriminate]. assert (B := columns_fuel tofloat ps SSEs 0).
  destruct (columns tofloat ps 0 SSEs) as [es' f]. exact B.
Qed.
Print Assumptions C64_ends.

(** ** individuals as logged *)
(** an identifier: letters, digits, underscores, not a digit first *)
Definition identifier (n : text) : Prop :=
  exists c r, n = c :: r /\ In c (letters ++ lit "_") /\ Forall (fun c => In c (letters ++ digits ++ lit "_")) r.
Definition underscored (n : text) : bool := match n with c :: _ => Ascii.eqb c "_" | [] => false end.
(** name, formatted value, stars *)
Definition a_value (p : found) : Prop := identifier (fst p) /\ a_number (fst (snd p)) /\ some_stars (snd (snd p)).
(** what can be read back: not the names with an underscore in front *)
Definition readable (vals : list found) : list found := filter (fun p => negb (underscored (fst p))) vals.

Definition part (p : found) : text := fst p ++ txt "=" ++ fst (snd p) ++ snd (snd p).
Definition ptok (p : found) : tok := if underscored (fst p) then TWord (part p) else TPar (fst p) (fst (snd p)) (snd (snd p)) false.
Lemma ptok_text : forall p, tok_text (ptok p) = part p.
Proof. intros p. unfold ptok, part. destruct (underscored (fst p)); auto. cbn [tok_text]. now rewrite app_nil_r. Qed.
Lemma value_nospace : forall p, a_value p -> none is_space (part p) /\ part p <> [].
Proof.
  intros [n [v st]] ((c & r & E & L & W) & V & S). cbn [fst snd] in *. subst n. unfold part. cbn [fst snd]. split; [|discriminate].
  apply number_ok in V. destruct V as (sg & d & q & -> & SG & D & NU). apply stars_ok in S.
  unfold none. rewrite !Forall_app. repeat split.
  - constructor.
    + apply wordc_not_space. apply wordc_iff. apply in_app_or in L. apply in_or_app. destruct L as [L|L]; [now left|right; apply in_or_app; now right].
    + eapply Forall_impl; [|exact W]. intros x I. apply wordc_not_space. now apply wordc_iff.
  - repeat constructor.
  - destruct SG as [->|(x & -> & Sx)]; [constructor|]. constructor; [now apply sign_not_space|constructor].
  - constructor; [now apply num_not_space, dig_num|]. eapply Forall_impl; [|exact NU]. apply num_not_space.
  - eapply Forall_impl; [|exact S]. apply star_not_space.
Qed.
Lemma us_not_letter : is_letter "_" = false. Proof. reflexivity. Qed.
Lemma ptok_ok : forall p, a_value p -> ok_tok (ptok p).
Proof.
  intros p V. destruct (value_nospace p V) as [S N]. destruct V as ((c & r & E & L & W) & V & ST). unfold ptok. destruct (underscored (fst p)) eqn:U.
  - cbn [ok_tok]. split; auto. split; auto. right. right. rewrite E in U. cbn in U. apply Ascii.eqb_eq in U. subst c.
    exists "_"%char. eexists. split; [|reflexivity]. unfold part. rewrite E. reflexivity.
  - cbn [ok_tok]. split; [|split; [now apply number_ok|now apply stars_ok]]. exists c, r. split; auto.
    split; [|now apply (all_iff is_wordc _ r wordc_iff)]. apply letter_iff. apply in_app_or in L as [L|L]; auto. exfalso. rewrite E in U. cbn in U.
    destruct L as [<-|[]]. discriminate.
Qed.
Lemma ptok_params : forall vals, params (map ptok vals) = readable vals.
Proof.
  induction vals as [|[n [v st]] vals IH]; auto. unfold readable in *. cbn [map filter]. unfold ptok at 1. cbn [fst snd]. destruct (underscored n); cbn [negb]; [exact IH|].
  change (params (TPar n v st false :: map ptok vals)) with ((n, (v, st)) :: params (map ptok vals)). now rewrite IH.
Qed.
(** a closing > on the last item *)
Definition addgt (t : tok) : tok := match t with TPar n v st _ => TPar n v st true | TWord w => TWord (w ++ txt ">") end.
Lemma addgt_text : forall p, tok_text (addgt (ptok p)) = part p ++ txt ">".
Proof. intros p. unfold ptok, part. destruct (underscored (fst p)); cbn [addgt tok_text]; auto. now rewrite <- !app_assoc. Qed.
Lemma addgt_ok : forall p, a_value p -> ok_tok (addgt (ptok p)).
Proof.
  intros p V. assert (O := ptok_ok p V). destruct (value_nospace p V) as [S N]. unfold ptok in *. destruct (underscored (fst p)) eqn:U; cbn [addgt ok_tok] in *; auto.
  split; [destruct (part p); discriminate|]. split; [apply Forall_app; split; auto; repeat constructor|]. right. right.
  destruct V as ((c & r & E & L & W) & _). rewrite E in U. cbn in U. apply Ascii.eqb_eq in U. subst c.
  exists "_"%char. eexists. split; [|reflexivity]. unfold part. rewrite E. reflexivity.
Qed.
Lemma addgt_params : forall p, params [addgt (ptok p)] = params [ptok p].
Proof. intros p. unfold ptok. destruct (underscored (fst p)); reflexivity. Qed.
(** joined items *)
Lemma join_cons : forall sep x y (l : list text), join sep (x :: y :: l) = x ++ sep ++ join sep (y :: l).
Proof. reflexivity. Qed.
Lemma space_line : forall ts s, line_of ts s -> line_of ts (txt " " ++ s).
Proof.
  intros ts s L. destruct L as [trail A|gap t ts rest A O L Br]; cbn [txt list_ascii_of_string app].
  - constructor. constructor; auto.
  - change (" "%char :: gap ++ tok_text t ++ rest) with ((" "%char :: gap) ++ tok_text t ++ rest). constructor; auto. constructor; auto.
Qed.
Lemma join_toks : forall ts, Forall ok_tok ts -> line_of ts (join (txt " ") (map tok_text ts)).
Proof.
  intros ts H. induction H as [|t ts O H IH]; [constructor; constructor|]. destruct ts as [|u ts].
  - cbn [map join]. rewrite <- (app_nil_r (tok_text t)). apply (lo_cons [] t [] []); [constructor|exact O|constructor; constructor|now left].
  - cbn [map]. rewrite join_cons. apply (lo_cons [] t (u :: ts) (txt " " ++ join (txt " ") (tok_text u :: map tok_text ts))); [constructor|exact O|now apply space_line|right; eexists _, _; split; reflexivity].
Qed.
Lemma join_vals : forall vals, Forall a_value vals -> line_of (map ptok vals) (join (txt " ") (map part vals)).
Proof.
  intros vals H. assert (E : map part vals = map tok_text (map ptok vals)) by (rewrite map_map; apply map_ext; intros; now rewrite ptok_text).
  rewrite E. apply join_toks. apply Forall_forall. intros t I. apply in_map_iff in I as (p & <- & I). apply ptok_ok. rewrite Forall_forall in H. auto.
Qed.
Lemma join_snoc : forall sep (l : list text) z e, join sep (l ++ [z ++ e]) = join sep (l ++ [z]) ++ e.
Proof.
  induction l as [|x l IH]; intros z e; auto. destruct l as [|y l].
  - cbn [app]. rewrite !join_cons. cbn [join]. now rewrite <- !app_assoc.
  - change ((x :: y :: l) ++ [z ++ e]) with (x :: y :: (l ++ [z ++ e])). change ((x :: y :: l) ++ [z]) with (x :: y :: (l ++ [z])).
    rewrite !join_cons. change (y :: l ++ [z ++ e]) with ((y :: l) ++ [z ++ e]). change (y :: l ++ [z]) with ((y :: l) ++ [z]). rewrite IH. now rewrite <- !app_assoc.
Qed.
Lemma join_vals_gt : forall vals, Forall a_value vals -> vals <> [] ->
  exists ts, line_of ts (join (txt " ") (map part vals) ++ txt ">") /\ params ts = readable vals /\ ts <> [].
Proof.
  intros vals H N. destruct (exists_last N) as (l & z & ->). exists (map ptok l ++ [addgt (ptok z)]).
  apply Forall_app in H as [H1 H2]. inversion H2; subst. split; [|split].
  - rewrite map_app. cbn [map]. rewrite <- join_snoc. rewrite <- addgt_text.
    assert (E : map part l ++ [tok_text (addgt (ptok z))] = map tok_text (map ptok l ++ [addgt (ptok z)])).
    { rewrite map_app. cbn [map]. f_equal. rewrite map_map. apply map_ext. intros. now rewrite ptok_text. }
    refine (eq_ind _ (fun u => line_of _ (join (txt " ") u)) _ _ (eq_sym E)). apply join_toks. apply Forall_app. split; [|constructor; [now apply addgt_ok|constructor]].
    apply Forall_forall. intros t I. apply in_map_iff in I as (p & <- & I). apply ptok_ok. rewrite Forall_forall in H1. auto.
  - rewrite <- ptok_params. rewrite map_app. unfold params. rewrite !flat_map_app. f_equal. apply addgt_params.
  - destruct (map ptok l); discriminate.
Qed.
(** the rest of the first line *)
Lemma rest_join : forall u vals, join (txt " ") (u :: map part vals) = u ++ match vals with [] => [] | _ => txt " " ++ join (txt " ") (map part vals) end.
Proof. intros u [|p vals]; [cbn; now rewrite app_nil_r|]. reflexivity. Qed.
Lemma rest_line : forall vals, Forall a_value vals ->
  line_of (map ptok vals) (match vals with [] => [] | _ => txt " " ++ join (txt " ") (map part vals) end).
Proof. intros [|p vals] H; [constructor; constructor|]. apply space_line. now apply join_vals. Qed.
Lemma rest_line_gt : forall vals, Forall a_value vals ->
  exists ts, line_of ts (match vals with [] => [] | _ => txt " " ++ join (txt " ") (map part vals) end ++ txt ">") /\ params ts = readable vals.
Proof.
  intros [|p vals] H.
  - exists [TWord (txt ">")]. split; [|reflexivity]. apply (lo_cons [] (TWord (txt ">")) [] []); [constructor| |constructor; constructor|now left].
    split; [discriminate|]. split; [repeat constructor|]. left. intros [I|[]]. discriminate.
  - destruct (join_vals_gt (p :: vals) H) as (ts & A & B & _); [discriminate|]. exists ts. split; auto. rewrite <- app_assoc. now apply space_line.
Qed.
Lemma split_groups : forall (A B : Type) (f : A -> B) gs vals, concat gs = map f vals -> exists vss, gs = map (map f) vss /\ concat vss = vals.
Proof.
  induction gs as [|g gs IH]; intros vals E; cbn [concat] in E.
  - destruct vals; [|discriminate]. exists []. auto.
  - symmetry in E. apply map_eq_app in E as (l1 & l2 & -> & E1 & E2). destruct (IH l2 (eq_sym E2)) as (vss & -> & <-). exists (l1 :: vss).
    split; cbn; auto. now rewrite E1.
Qed.
Lemma readable_concat : forall vss, flat_map readable vss = readable (concat vss).
Proof. induction vss as [|v vss IH]; auto. cbn [flat_map concat]. unfold readable at 3. rewrite filter_app. now f_equal. Qed.
(** lines of the representation: a first line with the SSE, then others *)
Lemma repr_shape : forall groups num vals, Forall a_value vals -> concat groups = pretty_parts (txt "SSE=" ++ num) vals -> Forall (fun g => g <> []) groups ->
  exists rest more ts tss, repr_lines (fill_lines groups) = (txt "<" ++ txt "SSE=" ++ num ++ rest) :: more /\ line_of ts rest /\
    (forall c r, rest = c :: r -> is_num c = false) /\ (forall c r, rest = c :: r -> is_space c = true \/ rest = txt ">") /\
    Forall2 (fun ts l => line_of ts l /\ ts <> []) tss more /\ params ts ++ flat_map params tss = readable vals.
Proof.
  intros groups num vals V E G. destruct groups as [|g0 gs]; [discriminate|]. inversion G as [|? ? G0 GS]; subst.
  destruct g0 as [|u g0]; [congruence|]. cbn [concat app] in E. unfold pretty_parts in E. injection E as -> E.
  change (g0 ++ concat gs = map part vals) in E. symmetry in E. apply map_eq_app in E as (v0 & v1 & -> & E0 & E1). subst g0.
  destruct (split_groups _ _ part gs v1 (eq_sym E1)) as (vss & -> & <-). clear E1. apply Forall_app in V as [V0 V1].
  assert (VS : Forall (fun vs => Forall a_value vs /\ vs <> []) vss).
  { clear - V1 GS. induction vss as [|vs vss IH]; [constructor|]. cbn [concat] in V1. apply Forall_app in V1 as [A B]. inversion GS; subst.
    constructor; [split; auto; intros ->; apply H1; reflexivity|]. apply IH; auto. }
  assert (R : forall vs c r, match vs with [] => [] | _ :: _ => txt " " ++ join (txt " ") (map part vs) end = c :: r -> is_space c = true).
  { intros [|p vs] c r; [discriminate|]. cbn [txt list_ascii_of_string app]. intros Q. injection Q as <- _. reflexivity. }
  destruct vss as [|w vss' _] using rev_ind.
  - cbn [map concat]. rewrite app_nil_r. unfold fill_lines. cbn [map repr_lines rev]. rewrite rest_join.
    destruct (rest_line_gt v0 V0) as (ts & A & B). eexists _, [], ts, []. rewrite <- !app_assoc. split; [reflexivity|]. split; [exact A|]. split; [|split; [|split]].
    + intros c r Q. destruct v0 as [|p v0]; cbn [txt list_ascii_of_string app] in Q; injection Q as <- _; reflexivity.
    + intros c r Q. destruct v0 as [|p v0]; [now right|]. left. cbn [txt list_ascii_of_string app] in Q. injection Q as <- _. reflexivity.
    + constructor.
    + cbn [flat_map]. now rewrite app_nil_r.
  - apply Forall_app in VS as [VS1 VS2]. inversion VS2 as [|? ? [W1 W2] _]; subst.
    destruct (join_vals_gt w W1 W2) as (tz & Z1 & Z2 & Z3).
    eexists _, (map (fun vs => join (txt " ") (map part vs)) vss' ++ [join (txt " ") (map part w) ++ txt ">"]), (map ptok v0), (map (map ptok) vss' ++ [tz]).
    split; [|split; [|split; [|split; [|split]]]].
    + unfold fill_lines. cbn [map repr_lines]. rewrite !map_app, rev_app_distr. cbn [map rev app]. rewrite rev_involutive. rewrite rest_join.
      rewrite !map_map. reflexivity.
    + now apply rest_line.
    + intros c r Q. apply space_not_num. eapply R; eauto.
    + intros c r Q. left. eapply R; eauto.
    + apply Forall2_app; [|constructor; [auto|constructor]]. clear - VS1. induction VS1 as [|vs vss [A B] H IH]; constructor; auto. split; [now apply join_vals|].
      destruct vs; [congruence|discriminate].
    + rewrite ptok_params. rewrite flat_map_app. cbn [flat_map]. rewrite app_nil_r, Z2. rewrite concat_app. cbn [concat]. rewrite app_nil_r.
      unfold readable at 3. rewrite !filter_app. f_equal. change (filter (fun p : found => negb (underscored (fst p)))) with readable. f_equal.
      rewrite <- readable_concat. clear. induction vss' as [|v vss IH]; auto. cbn [map flat_map]. rewrite ptok_params. now f_equal.
Qed.
Lemma lt_no_sse : forall a b, txt "<" <> a ++ txt "SSE=" ++ b.
Proof. intros [|x [|y a]] b E; discriminate. Qed.
Lemma no_table_lines : forall lines, Forall (fun l => forall c r, strip l = c :: r -> c <> "F"%char) lines -> table0 lines = Ok ([], []).
Proof.
  intros lines H. induction H as [|l lines Hl H IH]; auto. cbn [table0]. destruct (starts_with _ _) eqn:E; auto. exfalso.
  apply strip_prefix_iff in E as (r & E). eapply Hl; [exact E|reflexivity].
Qed.
(** none of these lines begins a table *)
Lemma part_not_final : forall p x, a_value p -> ~ begins (txt "Final population") (part p ++ x).
Proof.
  intros p x V (g & r & G & E). destruct (value_nospace p V) as [S N].
  assert (EQ : In "="%char (part p)) by (unfold part; apply in_or_app; right; apply in_or_app; left; now left).
  destruct g as [|c g]; [|exfalso; inversion G; subst; destruct (part p) as [|d q]; [congruence|]; cbn in E; injection E as -> _; inversion S; congruence].
  cbn [app] in E. revert EQ S E. generalize (part p) as q. intros q EQ S E.
  cbn [txt list_ascii_of_string app] in E.
  do 6 (destruct q as [|? q]; [cbn [In] in EQ; repeat (destruct EQ as [EQ|EQ]; [subst; discriminate|]); destruct EQ|cbn [app] in E; injection E as ? E; subst]).
  clear - S. repeat match goal with H : none _ _ |- _ => unfold none in H | H : Forall _ (_ :: _) |- _ => inversion H; clear H; subst end. discriminate.
Qed.
Lemma join_head : forall p vals, exists x, join (txt " ") (map part (p :: vals)) = part p ++ x.
Proof. intros p [|q vals]; [exists []; cbn; now rewrite app_nil_r|eexists; reflexivity]. Qed.
Lemma lt_not_final : forall x, ~ begins (txt "Final population") (txt "<" ++ x).
Proof. intros x ([|c g] & r & G & E); [discriminate|]. cbn in E. injection E as <- _. inversion G; discriminate. Qed.
Lemma repr_no_table : forall groups num vals, Forall a_value vals -> concat groups = pretty_parts (txt "SSE=" ++ num) vals -> Forall (fun g => g <> []) groups ->
  Forall (fun l => ~ begins (txt "Final population") l) (repr_lines (fill_lines groups)).
Proof.
  intros groups num vals V E G. destruct groups as [|g0 gs]; [discriminate|]. inversion G as [|? ? G0 GS]; subst.
  destruct g0 as [|u g0]; [congruence|]. cbn [concat app] in E. unfold pretty_parts in E. injection E as -> E.
  change (g0 ++ concat gs = map part vals) in E. symmetry in E. apply map_eq_app in E as (v0 & v1 & -> & E0 & E1). subst g0.
  destruct (split_groups _ _ part gs v1 (eq_sym E1)) as (vss & -> & <-). clear E1. apply Forall_app in V as [V0 V1].
  assert (VS : Forall (fun vs => exists p r, vs = p :: r /\ a_value p) vss).
  { clear - V1 GS. induction vss as [|vs vss IH]; [constructor|]. cbn [concat] in V1. apply Forall_app in V1 as [A B]. inversion GS; subst.
    constructor; [|apply IH; auto]. destruct vs as [|p r]; [exfalso; now apply H1|]. exists p, r. split; auto. now inversion A. }
  clear V1 GS G G0. destruct vss as [|w vss' _] using rev_ind.
  - unfold fill_lines. cbn [map repr_lines rev]. constructor; [|constructor]. apply lt_not_final.
  - apply Forall_app in VS as [VS1 VS2]. inversion VS2 as [|? ? (pz & rz & -> & Az) _]; subst.
    unfold fill_lines. cbn [map repr_lines]. rewrite !map_app, rev_app_distr. cbn [map rev app]. rewrite rev_involutive.
    constructor; [apply lt_not_final|]. apply Forall_app. split.
    + rewrite map_map. clear - VS1. induction VS1 as [|vs vss (p & r & -> & A) H IH]; constructor; auto.
      destruct (join_head p r) as (x & ->). now apply part_not_final.
    + constructor; [|constructor]. destruct (join_head pz rz) as (x & Ex). cbn [map] in Ex. rewrite Ex. rewrite <- app_assoc. now apply part_not_final.
Qed.
Lemma blank_not_final : forall b, spaces b -> ~ begins (txt "Final population") b.
Proof.
  intros b S (g & r & G & ->). apply spaces_iff in S. apply all_app in S as [_ S]. inversion S. discriminate.
Qed.
Lemma readable_nodup : forall vals, NoDup (map fst vals) -> NoDup (map fst (readable vals)).
Proof.
  unfold readable. induction vals as [|p vals IH]; intros N; [constructor|]. cbn [map] in N. inversion N as [|? ? N1 N2]; subst. cbn [filter].
  destruct (negb (underscored (fst p))); auto. cbn [map]. constructor; auto. intros I. apply N1. apply in_map_iff in I as (q & E & I). apply filter_In in I as [I _].
  rewrite <- E. now apply in_map.
Qed.
(** an individual logged by itself, however its text is wrapped, is read as one
    entry with its SSE, and its values and stars in order, except those of
    names that begin with an underscore *)
Theorem C64_individual : forall F (tofloat : text -> option F) groups num x vals blank,
  Forall a_value vals -> NoDup (map fst vals) -> numchars num -> num <> [] -> tofloat num = Some x ->
  concat groups = pretty_parts (lit "SSE=" ++ num) vals -> Forall (fun g => g <> []) groups -> spaces blank ->
  filerator tofloat (repr_lines (fill_lines groups) ++ [blank]) = ([(x, readable vals)], Finished).
Proof.
  intros F tofloat groups num x vals blank V D N1 N2 T E G B.
  destruct (repr_shape groups num vals V E G) as (rest & more & ts & tss & R & L & K & _ & M & P).
  unfold filerator. rewrite table0_none.
  - rewrite R. cbn [app]. rewrite (phase1_entry tofloat (txt "<") num rest ts tss more x); auto.
    + cbn [tl phase1]. rewrite P, tset_all_nil by now apply readable_nodup. reflexivity.
    + apply lt_no_sse.
    + now apply num_all.
    + destruct rest as [|c r]; [now left|]. right. exists c, r. split; auto. eapply K. reflexivity.
    + right. exists blank, []. split; auto. now apply spaces_iff.
  - apply Forall_app. split; [eapply repr_no_table; eauto|]. constructor; [|constructor]. now apply blank_not_final.
Qed.
Print Assumptions C64_individual.
(** float of a text, for examples: whether it is "12" or not *)
Definition ex_float (s : text) : option nat := if text_eqb s (lit "12.0") then Some 12 else if text_eqb s (lit "7.5") then Some 7 else None.
Definition ex_vals : list found := [(lit "_z", (lit "3", [])); (lit "alpha", (lit "-1.5e-05", lit "*")); (lit "b_2", (lit "4", []))].
Ltac okc W := repeat split; auto; try (apply W; reflexivity); repeat (constructor; try (apply W; reflexivity)).
Lemma ex_vals_ok : Forall a_value ex_vals /\ NoDup (map fst ex_vals).
Proof.
  split; [|repeat constructor; simpl; intuition discriminate].
  assert (W : forall s c, existsb (Ascii.eqb c) s = true -> In c s) by (intros; now apply existsb_in).
  repeat constructor; cbn [fst snd].
  - exists "_"%char, (lit "z"). okc W.
  - exists [], "3"%char, []. okc W.
  - exists "a"%char, (lit "lpha"). okc W.
  - exists (lit "-"), "1"%char, (lit ".5e-05"). okc W.
  - exists "b"%char, (lit "_2"). okc W.
  - exists [], "4"%char, []. okc W.
Qed.
Example C64_individual_ex : let groups := [[lit "SSE=12.0"; lit "_z=3"]; [lit "alpha=-1.5e-05*"]; [lit "b_2=4"]] in
  concat groups = pretty_parts (lit "SSE=" ++ lit "12.0") ex_vals /\ Forall (fun g => g <> []) groups /\
  map string_of_list_ascii (repr_lines (fill_lines groups)) = ["<SSE=12.0 _z=3"; "alpha=-1.5e-05*"; "b_2=4>"]%string /\
  filerator ex_float (repr_lines (fill_lines groups) ++ [[]]) = ([(12, [(lit "alpha", (lit "-1.5e-05", lit "*")); (lit "b_2", (lit "4", []))])], Finished).
Proof. split; [reflexivity|]. split; [repeat constructor; discriminate|]. split; vm_compute; reflexivity. Qed.
(** an infinite SSE hides the individual: it is logged, but no entry is read *)
Theorem C64_infinite_refuted : exists vals, Forall a_value vals /\ NoDup (map fst vals) /\ vals <> [] /\
  forall F (tofloat : text -> option F),
    filerator tofloat (repr_lines (fill_lines [pretty_parts (lit "SSE=inf") vals]) ++ [[]]) = ([], Finished).
Proof. exists ex_vals. split; [apply ex_vals_ok|]. split; [apply ex_vals_ok|]. split; [discriminate|]. reflexivity. Qed.
Print Assumptions C64_infinite_refuted.
(** a parameter whose name ends in SSE starts an entry of its own *)
Theorem C64_name_refuted : exists vals, Forall a_value vals /\ NoDup (map fst vals) /\
  forall F (tofloat : text -> option F) x, tofloat (lit "4") = Some x ->
    fst (filerator tofloat (repr_lines (fill_lines [pretty_parts (lit "SSE=inf") vals]) ++ [[]])) = [(x, [(lit "y", (lit "5", []))])].
Proof.
  exists [(lit "xSSE", (lit "4", [])); (lit "y", (lit "5", []))]. split; [|split].
  - assert (W : forall s c, existsb (Ascii.eqb c) s = true -> In c s) by (intros; now apply existsb_in).
    repeat constructor; cbn [fst snd].
    + exists "x"%char, (lit "SSE"). okc W.
    + exists [], "4"%char, []. okc W.
    + exists "y"%char, []. okc W.
    + exists [], "5"%char, []. okc W.
  - repeat constructor; simpl; intuition discriminate.
  - intros F tofloat x H. vm_compute. vm_compute in H. rewrite H. reflexivity.
Qed.
Print Assumptions C64_name_refuted.
(** a log with two entries and other lines in between *)
Example C64_log_ex : exists es lines, a_log ex_float es lines /\ no_table lines /\ map fst es = [12; 7] /\
  map string_of_list_ascii lines = ["hello SSE 3"; "Run 1: SSE=12.0 with alpha=-1.5e-05* y=nan"; "  b_2=4>"; ""; "SSE=7.5 b_2=5"]%string.
Proof.
  assert (W : forall s c, existsb (Ascii.eqb c) s = true -> In c s) by (intros; now apply existsb_in).
  assert (WN : forall c, is_space c = false -> ~ white c) by (intros c H; now apply (neg_iff _ _ (space_iff c))).
  assert (B : forall n v st gt rest ts, an_item (TPar n v st gt) -> a_line ts rest -> starts_white rest ->
    a_line (TPar n v st gt :: ts) (lit " " ++ tok_text (TPar n v st gt) ++ rest)).
  { intros. apply al_cons; auto. constructor; [|constructor]. apply space_iff. reflexivity. }
  assert (SW : forall s, starts_white (lit " " ++ s)) by (intros s; right; exists " "%char, s; split; auto; apply space_iff; reflexivity).
  assert (A1 : an_item (TPar (lit "alpha") (lit "-1.5e-05") (lit "*") false)).
  { split; [exists "a"%char, (lit "lpha"); okc W|]. split; [exists (lit "-"), "1"%char, (lit ".5e-05"); okc W|]. constructor; auto. }
  assert (A2 : forall v gt, v = lit "4" \/ v = lit "5" -> an_item (TPar (lit "b_2") v [] gt)).
  { intros v gt V. split; [exists "b"%char, (lit "_2"); okc W|]. split; [|constructor]. destruct V as [->| ->].
    - exists [], "4"%char, []. okc W.
    - exists [], "5"%char, []. okc W. }
  assert (A3 : an_item (TWord (lit "with"))).
  { split; [discriminate|]. split; [repeat (constructor; [apply WN; reflexivity|]); constructor|]. left. simpl. intuition discriminate. }
  assert (A4 : an_item (TWord (lit "y=nan"))).
  { split; [discriminate|]. split; [repeat (constructor; [apply WN; reflexivity|]); constructor|]. right. left. exists (lit "y"), (lit "nan"). split; [reflexivity|]. split; [repeat constructor; apply W; reflexivity|].
    split; [discriminate|]. split.
    - intros d r E. injection E as <- _. intros I. apply dig_iff in I. discriminate.
    - intros s d r E. injection E as <- <- _. intros I. apply sign_iff in I. discriminate. }
  exists [(12, [(lit "alpha", (lit "-1.5e-05", lit "*")); (lit "b_2", (lit "4", []))]); (7, [(lit "b_2", (lit "5", []))])].
  exists [lit "hello SSE 3"; lit "Run 1: SSE=12.0 with alpha=-1.5e-05* y=nan"; lit "  b_2=4>"; []; lit "SSE=7.5 b_2=5"].
  split; [|split; [|split; reflexivity]].
  - apply lg_noise.
    { intros a c b E. exfalso. assert (I : In "="%char (lit "hello SSE 3")) by (rewrite E; apply in_or_app; right; simpl; auto).
      simpl in I. intuition discriminate. }
    apply (lg_entry ex_float (12, [(lit "alpha", (lit "-1.5e-05", lit "*")); (lit "b_2", (lit "4", []))])
      [lit "Run 1: SSE=12.0 with alpha=-1.5e-05* y=nan"; lit "  b_2=4>"] [] _ [lit "SSE=7.5 b_2=5"]); [|constructor|].
    + exists (lit "Run 1: "), (lit "12.0"), (lit " with alpha=-1.5e-05* y=nan"),
        [TWord (lit "with"); TPar (lit "alpha") (lit "-1.5e-05") (lit "*") false; TWord (lit "y=nan")], [[TPar (lit "b_2") (lit "4") [] true]], [lit "  b_2=4>"].
      split; [reflexivity|]. split; [intros a b E; assert (I : In "="%char (lit "Run 1: ")) by (rewrite E; apply in_or_app; right; simpl; auto 6); simpl in I; intuition discriminate|].
      split; [repeat constructor; apply W; reflexivity|]. split; [discriminate|]. split; [reflexivity|]. split; [|split; [|split; [|split; [reflexivity|]]]].
      * apply (al_cons (lit " ") (TWord (lit "with")) _ (lit " alpha=-1.5e-05* y=nan")); [constructor; [apply space_iff; reflexivity|constructor]|exact A3| |apply (SW (lit "alpha=-1.5e-05* y=nan"))].
        apply (B (lit "alpha") (lit "-1.5e-05") (lit "*") false (lit " y=nan")); auto; [|apply (SW (lit "y=nan"))].
        apply (al_cons (lit " ") (TWord (lit "y=nan")) [] []); [constructor; [apply space_iff; reflexivity|constructor]|exact A4|constructor; constructor|now left].
      * intros c r E. injection E as <- _. intros I. apply num_iff in I. discriminate.
      * constructor; [|constructor]. split; [|discriminate].
        apply (al_cons (lit "  ") (TPar (lit "b_2") (lit "4") [] true) [] []); [repeat (constructor; [apply space_iff; reflexivity|]); constructor|apply A2; auto|constructor; constructor|now left].
      * repeat constructor; simpl; intuition discriminate.
    + apply lg_last. exists [], (lit "7.5"), (lit " b_2=5"), [TPar (lit "b_2") (lit "5") [] false], [], []. split; [reflexivity|].
      split; [intros a b E; destruct a; discriminate|]. split; [repeat constructor; apply W; reflexivity|]. split; [discriminate|]. split; [reflexivity|].
      split; [apply (B (lit "b_2") (lit "5") [] false []); [apply A2; auto|constructor; constructor|now left]|].
      split; [intros c r E; injection E as <- _; intros I; apply num_iff in I; discriminate|]. split; [constructor|]. split; [reflexivity|].
      repeat constructor; simpl; intuition discriminate.
  - unfold no_table. repeat (constructor; [intros X; apply starts_iff, starts_final in X; vm_compute in X; discriminate|]). constructor.
Qed.

(** ** C65 *)
(** two individuals logged without a blank line between them, as the debug
    message of a report does: the entry read has the SSE of the first and the
    values of the second *)
Lemma tset_over : forall A (b a p : tdict A), map fst a = map fst b -> NoDup (map fst (p ++ a)) -> tset_all (p ++ a) b = p ++ b.
Proof.
  induction b as [|[k v] b IH]; intros a p E N; destruct a as [|[k' v'] a]; try discriminate; auto.
  cbn [map] in E. injection E as -> E. cbn [tset_all fold_left fst snd].
  assert (T : tset (p ++ (k, v') :: a) k v = p ++ (k, v) :: a).
  { rewrite map_app in N. cbn [map fst] in N. apply NoDup_remove_2 in N. clear - N. induction p as [|[j w] p IH]; cbn [app tset].
    - now rewrite text_eqb_refl.
    - destruct (text_eqb j k) eqn:E; [apply text_eqb_eq in E; subst; exfalso; apply N; now left|]. rewrite IH; auto. intros I. apply N. now right. }
  rewrite T. change (p ++ (k, v) :: a) with (p ++ [(k, v)] ++ a). change (p ++ (k, v) :: b) with (p ++ [(k, v)] ++ b). rewrite !app_assoc. apply IH; auto.
  rewrite <- app_assoc. rewrite map_app in N |- *. exact N.
Qed.
Lemma readable_names : forall a b, map fst a = map fst b -> map fst (readable a) = map fst (readable b).
Proof.
  unfold readable. induction a as [|[n x] a IH]; intros [|[m y] b] E; try discriminate; auto. cbn [map fst] in E. injection E as -> E. cbn [filter fst].
  destruct (negb (underscored m)); cbn [map fst]; auto. f_equal. now apply IH.
Qed.
Theorem C65_mixed_refuted : forall F (tofloat : text -> option F) ga gb na nb x va vb,
  Forall a_value va -> Forall a_value vb -> map fst va = map fst vb -> NoDup (map fst va) ->
  numchars na -> na <> [] -> numchars nb -> nb <> [] -> tofloat na = Some x ->
  concat ga = pretty_parts (lit "SSE=" ++ na) va -> Forall (fun g => g <> []) ga ->
  concat gb = pretty_parts (lit "SSE=" ++ nb) vb -> Forall (fun g => g <> []) gb ->
  filerator tofloat (debug_lines (fill_lines ga) (fill_lines gb)) = ([(x, readable vb)], Finished).
Proof.
  intros F tofloat ga gb na nb x va vb Va Vb Eq D Na1 Na2 Nb1 Nb2 T Ea Ga Eb Gb.
  destruct (repr_shape ga na va Va Ea Ga) as (ra & ma & ta & tssa & Ra & La & Ka & _ & Ma & Pa).
  destruct (repr_shape gb nb vb Vb Eb Gb) as (rb & mb & tb & tssb & Rb & Lb & Kb & Kb2 & Mb & Pb).
  unfold filerator. rewrite table0_none.
  - unfold debug_lines. rewrite Ra, Rb.
    assert (W : exists tb2, line_of tb2 (txt "<" ++ txt "SSE=" ++ nb ++ rb) /\ tb2 <> [] /\ params tb2 = params tb).
    { assert (WS : forall w, none is_space w -> ok_word (txt "<SSE=" ++ w)).
      { intros w S. split; [discriminate|]. split; [apply Forall_app; split; auto; repeat constructor|]. right. right. exists "<"%char. eexists. split; reflexivity. }
      assert (SN : none is_space nb) by (apply num_all in Nb1; eapply Forall_impl; [|exact Nb1]; apply num_not_space).
      destruct rb as [|c rb].
      - exists (TWord (txt "<SSE=" ++ nb) :: tb). split; [|split; [discriminate|reflexivity]].
        apply (lo_cons [] (TWord (txt "<SSE=" ++ nb)) tb []); [constructor|now apply WS|exact Lb|now left].
      - destruct (Kb2 c rb eq_refl) as [S|S].
        + exists (TWord (txt "<SSE=" ++ nb) :: tb). split; [|split; [discriminate|reflexivity]].
          apply (lo_cons [] (TWord (txt "<SSE=" ++ nb)) tb (c :: rb)); [constructor|now apply WS|exact Lb|right; eauto].
        + rewrite S in *. exists [TWord (txt "<SSE=" ++ nb ++ txt ">")]. split; [|split; [discriminate|]].
          * assert (Z := lo_cons [] (TWord (txt "<SSE=" ++ nb ++ txt ">")) [] [] ltac:(constructor) ltac:(apply WS; apply Forall_app; split; auto; repeat constructor) ltac:(constructor; constructor) ltac:(now left)).
            cbn [app tok_text] in Z. rewrite app_nil_r in Z. exact Z.
          * apply scan_line_spec in Lb. assert (Z : scan_line (txt ">") = Some []) by reflexivity. rewrite Z in Lb. injection Lb as Lb. rewrite <- Lb. reflexivity. }
    destruct W as (tb2 & L2 & N2 & P2).
    assert (Q : phase1 tofloat None ((txt "<" ++ txt "SSE=" ++ na ++ ra) :: (ma ++ [ascii_of_nat 9 :: txt "--->"] ++ (txt "<" ++ txt "SSE=" ++ nb ++ rb) :: mb) ++ [[]]) =
      yield1 (x, tset_all [] (params ta ++ flat_map params (tssa ++ [[TWord (txt "--->")]] ++ tb2 :: tssb))) (phase1 tofloat None (tl [[]]))).
    { apply phase1_entry; auto.
      + apply lt_no_sse.
      + now apply num_all.
      + destruct ra as [|c r]; [now left|]. right. exists c, r. split; auto. eapply Ka. reflexivity.
      + apply Forall2_app; auto. constructor; [|constructor; auto]. split; [|discriminate].
      apply (lo_cons [ascii_of_nat 9] (TWord (txt "--->")) [] []); [repeat constructor| |constructor; constructor|now left].
      split; [discriminate|]. split; [repeat constructor|]. right. right. eexists _, _. split; reflexivity.
      + right. exists [], []. split; auto. constructor. }
    eapply (eq_trans (y := match ([(x, readable vb)], Finished) with (es, Finished) => let (es', f) := columns tofloat [] 0 [] in (es ++ es', f) | r => r end)); [|reflexivity].
    match goal with |- match ?p with _ => _ end = _ => assert (PH : p = ([(x, readable vb)], Finished)); [|now rewrite PH] end.
    etransitivity; [|etransitivity; [exact Q|]].
    + f_equal. cbn [app]. f_equal. rewrite <- app_assoc. reflexivity.
    + cbn [tl phase1]. rewrite !flat_map_app. cbn [flat_map app]. change (params [TWord (txt "--->")]) with (@nil found). cbn [app].
      rewrite P2, Pb. rewrite app_assoc, Pa. rewrite <- tset_all_comp. rewrite tset_all_nil by now apply readable_nodup.
      assert (Z := tset_over _ (readable vb) (readable va) [] (readable_names va vb Eq) (readable_nodup va D)). cbn [app] in Z. rewrite Z. reflexivity.
  - unfold debug_lines. apply Forall_app. split; [exact (repr_no_table ga na va Va Ea Ga)|]. apply Forall_app. split.
    + constructor; [|constructor]. intros X. apply starts_final in X. vm_compute in X. discriminate.
    + apply Forall_app. split; [exact (repr_no_table gb nb vb Vb Eb Gb)|]. constructor; [|constructor]. apply blank_not_final. constructor.
Qed.
Print Assumptions C65_mixed_refuted.
Example C65_ex : let ga := [[lit "SSE=12.0"; lit "y=1"]] in let gb := [[lit "SSE=7.5"; lit "y=2"]] in
  map string_of_list_ascii (tl (debug_lines (fill_lines ga) (fill_lines gb))) = [String (ascii_of_nat 9) "--->"; "<SSE=7.5 y=2>"; ""]%string /\
  filerator ex_float (debug_lines (fill_lines ga) (fill_lines gb)) = ([(12, [(lit "y", (lit "2", []))])], Finished).
Proof. split; vm_compute; reflexivity. Qed.

(** ** C66 *)
(** cells with white space between them; a row: the name, a bar, the cells; the
    table: after a line "Final population", a row of SSEs, then the rows of the
    parameters up to a line of dashes *)
Inductive some_cells : list text -> text -> Prop :=
| sc_nil : forall trail, spaces trail -> some_cells [] trail
| sc_cons : forall gap w ws rest, spaces gap -> nospace w -> w <> [] -> some_cells ws rest -> starts_white rest ->
    some_cells (w :: ws) (gap ++ w ++ rest).
Definition a_row (n : text) (ws : list text) (l : text) : Prop :=
  exists g g2 b, l = g ++ n ++ g2 ++ lit "|" ++ b /\ spaces g /\ spaces g2 /\ some_cells ws b /\ ~ In "|"%char b.
Inductive a_table (SSEs : list text) (rows : list (text * list text)) : list text -> Prop :=
| a_table_intro : forall before fp mid hdr ds rls dash after,
    no_table before -> starts (lit "Final population") fp ->
    Forall (fun l => ~ starts (lit "SSE") l) mid -> a_row (lit "SSE") SSEs hdr ->
    Forall (starts (lit "--")) ds -> Forall2 (fun p l => a_name (fst p) /\ a_row (fst p) (snd p) l) rows rls -> rows <> [] ->
    starts (lit "--") dash ->
    a_table SSEs rows (before ++ fp :: mid ++ hdr :: ds ++ rls ++ dash :: after).
Lemma cells_ok : forall ws s, some_cells ws s -> cells_of ws s.
Proof.
  intros ws s H. induction H as [tr A|gap w ws rest A W N H IH B].
  - constructor. now apply spaces_iff.
  - constructor; auto; [now apply spaces_iff|now apply nospace_iff|now apply starts_white_ok].
Qed.
Lemma row_ok : forall n ws l, a_row n ws l -> row_line n ws l.
Proof.
  intros n ws l (g & g2 & b & E & G & G2 & C & B). exists g, g2, b. split; [exact E|]. split; [now apply spaces_iff|]. split; [now apply spaces_iff|]. split; auto. now apply cells_ok.
Qed.
Lemma table_ok : forall SSEs rows lines, a_table SSEs rows lines -> table_in SSEs rows lines.
Proof.
  intros SSEs rows lines [before fp mid hdr ds rls dash after B FP M H DS R RN DA]. constructor; auto.
  - eapply Forall_impl; [|exact B]. cbn. intros l A X. apply A. now apply starts_iff.
  - now apply starts_iff.
  - eapply Forall_impl; [|exact M]. cbn. intros l A X. apply A. now apply starts_iff.
  - now apply row_ok.
  - eapply Forall_impl; [|exact DS]. cbn. intros l A. now apply starts_iff.
  - clear - R. induction R as [|p l rows rls [A B] R IH]; constructor; auto. split; [now apply name_iff|now apply row_ok].
  - now apply starts_iff.
Qed.
Lemma columns_nth : forall F (f : nat -> list found) (xs : list F) k0 k x, nth_error xs k = Some x ->
  nth_error (map (fun p : nat * F => (snd p, f (fst p))) (combine (seq k0 (length xs)) xs)) k = Some (x, f (k0 + k)).
Proof.
  induction xs as [|y xs IH]; intros k0 k x H; [destruct k; discriminate|]. cbn [length seq combine map fst snd]. destruct k as [|k]; cbn [nth_error] in *.
  - injection H as ->. now rewrite Nat.add_0_r.
  - rewrite (IH (S k0) k x H). now rewrite Nat.add_succ_comm.
Qed.
Definition a_cell (c : text * text) : Prop := a_number (fst c) /\ some_stars (snd c).
(** after the entries of the log come the columns of the table: for each, its SSE
    and the value and stars of every parameter *)
Theorem C66_table : forall F (tofloat : text -> option F) es lines SSEs xs rows,
  a_log tofloat es lines -> a_table SSEs (map (fun r => (fst r, map (fun c => fst c ++ snd c) (snd r))) rows) lines ->
  NoDup (map fst rows) -> Forall (fun r => a_name (fst r) /\ Forall a_cell (snd r) /\ length SSEs <= length (snd r)) rows ->
  Forall2 (fun s x => tofloat s = Some x) SSEs xs ->
  exists es', filerator tofloat lines = (es ++ es', Finished) /\ length es' = length xs /\
    forall k x, nth_error xs k = Some x -> nth_error es' k = Some (x, map (fun r => (fst r, nth k (snd r) ([], []))) rows).
Proof.
  intros F tofloat es lines SSEs xs rows L T D R H. unfold filerator. rewrite (log_ok tofloat es lines L). apply table_ok in T.
  change (map (fun r : text * list (text * text) => (fst r, map (fun c : text * text => fst c ++ snd c) (snd r))) rows) with (map (fun r : text * list (text * text) => (fst r, map cell (snd r))) rows) in T.
  rewrite (table0_spec _ _ _ T); [|rewrite map_map; exact D].
  match goal with |- context [columns ?a ?b ?c ?d] => change (columns a b c d) with (columns tofloat (map (fun r : text * list (text * text) => (fst r, map cell (snd r))) rows) 0 SSEs) end.
  rewrite (columns_spec tofloat ([], []) rows SSEs xs 0); auto.
  - eexists. split; [reflexivity|]. split; [rewrite map_length, combine_length, seq_length; lia|]. intros k x E. exact (columns_nth F (fun k => column ([], []) k rows) xs 0 k x E).
  - eapply Forall_impl; [|exact R]. cbn. intros r (A & B & C). split; [now apply name_iff|]. split; auto.
    eapply Forall_impl; [|exact B]. intros c [N S]. split; [now apply number_ok|now apply stars_ok].
Qed.
Print Assumptions C66_table.

(** ** the table the population writes *)
Lemma cells_gap : forall g ws s, all is_space g -> cells_of ws s -> cells_of ws (g ++ s).
Proof.
  intros g ws s G C. destruct C as [tr A|gap w ws rest A W N C B].
  - constructor. apply all_app. auto.
  - rewrite app_assoc. constructor; auto. apply all_app. auto.
Qed.
Lemma blank_app : forall g s, all is_space g -> blank_start s -> blank_start (g ++ s).
Proof. intros [|c g] s G B; auto. right. inversion G; subst. cbn [app]. eauto. Qed.
Lemma cells_join : forall (l : list (text * text * text)),
  Forall (fun q => all is_space (fst (fst q)) /\ none is_space (snd (fst q)) /\ snd (fst q) <> [] /\ all is_space (snd q)) l ->
  cells_of (map (fun q => snd (fst q)) l) (join (txt " ") (map (fun q => fst (fst q) ++ snd (fst q) ++ snd q) l)).
Proof.
  intros l H. induction H as [|[[a w] b] l (A & W & N & B) H IH]; [constructor; constructor|]. cbn [fst snd map] in *. destruct l as [|q l].
  - cbn [map join]. constructor; auto; [now constructor|]. rewrite <- (app_nil_r b). apply blank_app; auto. now left.
  - cbn [map]. rewrite join_cons. rewrite <- !app_assoc. constructor; auto.
    + apply cells_gap; auto. apply cells_gap; [repeat constructor|]. exact IH.
    + apply blank_app; auto. right. eexists _, _. split; reflexivity.
Qed.
Lemma repeat_spaces : forall n, all is_space (repeat " "%char n).
Proof. induction n; constructor; auto. Qed.
Lemma table_row_ok : forall n (l : list (text * text * text)), ~ In "|"%char (join (txt " ") (map (fun q => fst (fst q) ++ snd (fst q) ++ snd q) l)) ->
  Forall (fun q => all is_space (fst (fst q)) /\ none is_space (snd (fst q)) /\ snd (fst q) <> [] /\ all is_space (snd q)) l ->
  row_line n (map (fun q => snd (fst q)) l) (table_row n (map (fun q => fst (fst q) ++ snd (fst q) ++ snd q) l)).
Proof.
  intros n l NB H. assert (C := cells_join l H). unfold table_row, padl. rewrite join_cons.
  exists (repeat " "%char (11 - length n)), (txt " "). destruct l as [|q l].
  - exists []. cbn [map join]. rewrite <- app_assoc. split; [reflexivity|]. split; [apply repeat_spaces|]. split; [repeat constructor|]. split; [exact C|]. intros [].
  - exists (txt " " ++ join (txt " ") (map (fun q => fst (fst q) ++ snd (fst q) ++ snd q) (q :: l))). cbn [map]. rewrite join_cons. rewrite <- app_assoc.
    split; [reflexivity|]. split; [apply repeat_spaces|]. split; [repeat constructor|]. split; [apply cells_gap; [repeat constructor|exact C]|].
    intros I. apply in_app_or in I as [[I|[]]|I]; [discriminate|now apply NB].
Qed.
Lemma in_join : forall c l, In c (join (txt " ") l) -> c = " "%char \/ exists s, In s l /\ In c s.
Proof.
  induction l as [|x l IH]; intros I; [destruct I|]. destruct l as [|y l]; [right; exists x; split; [now left|exact I]|].
  rewrite join_cons in I. apply in_app_or in I as [I|I]; [right; exists x; split; [now left|exact I]|]. apply in_app_or in I as [[I|[]]|I]; [now left|].
  destruct (IH I) as [E|(s & S1 & S2)]; [now left|right; exists s; split; [now right|exact S2]].
Qed.
Lemma no_eq_free : forall s, ~ In "="%char s -> sse_free s.
Proof. intros s H a c b E. exfalso. apply H. rewrite E. apply in_or_app. right. cbn. auto. Qed.
Lemma table_row_chars : forall c n cells, In c (table_row n cells) -> c = " "%char \/ c = "|"%char \/ In c n \/ exists s, In s cells /\ In c s.
Proof.
  intros c n cells I. unfold table_row in I. apply in_join in I as [I|(s & [S|[S|S]] & I)]; auto.
  - subst s. unfold padl in I. apply in_app_or in I as [I|I]; auto. left. symmetry. apply repeat_spec in I. auto.
  - subst s. destruct I as [I|[]]. auto.
  - right. right. right. eauto.
Qed.
Lemma cell_chars : forall c p, ok_cell p -> In c (cell p) -> is_num c = true \/ is_star c = true.
Proof.
  intros c [v st] [(sg & d & q & E & SG & D & NU) S] I. cbn [fst snd] in *. unfold cell in I. cbn [fst snd] in I. apply in_app_or in I as [I|I].
  - left. subst v. apply in_app_or in I as [I|[<-|I]].
    + destruct SG as [->|(x & -> & Sx)]; [destruct I|]. destruct I as [<-|[]]. unfold is_num. unfold is_sign in Sx. apply orb_true_iff in Sx. destruct Sx as [-> | ->]; rewrite ?orb_true_r; auto.
    + now apply dig_num.
    + unfold all in NU. rewrite Forall_forall in NU. auto.
  - right. unfold all in S. rewrite Forall_forall in S. auto.
Qed.
Lemma padr_split : forall n s, padr n s = s ++ repeat " "%char (n - length s). Proof. reflexivity. Qed.
Lemma dashes_begin : begins (txt "--") dashes.
Proof. exists [], (repeat "-"%char 118). split; [constructor|reflexivity]. Qed.
Lemma dashes_free : sse_free dashes.
Proof. apply no_eq_free. intros I. apply repeat_spec in I. discriminate. Qed.
(** the population logged at the end: first the best individual is read, then the
    columns of the table *)
Theorem C66_population : forall F (tofloat : text -> option F) more SSEs xs rows groups num xb vals,
  ~ In "="%char more -> Forall (fun s => s <> [] /\ nospace s /\ ~ In "|"%char s /\ ~ In "="%char s) SSEs ->
  Forall2 (fun s x => tofloat s = Some x) SSEs xs ->
  rows <> [] -> NoDup (map fst rows) -> Forall (fun r => a_name (fst r) /\ Forall a_cell (snd r) /\ length (snd r) = length SSEs) rows ->
  Forall a_value vals -> NoDup (map fst vals) -> numchars num -> num <> [] -> tofloat num = Some xb ->
  concat groups = pretty_parts (lit "SSE=" ++ num) vals -> Forall (fun g => g <> []) groups ->
  exists es', filerator tofloat (lit "Final population:" :: pop_lines (lit "Population: " ++ more) SSEs rows (repr_lines (fill_lines groups))) =
      ((xb, readable vals) :: es', Finished) /\ length es' = length xs /\
    forall k x, nth_error xs k = Some x -> nth_error es' k = Some (x, map (fun r => (fst r, nth k (snd r) ([], []))) rows).
Proof.
  intros F tofloat more SSEs xs rows groups num xb vals NE HS HX RN RD HR V D N1 N2 T E G.
  assert (HR' : Forall (fun r : text * list (text * text) => ok_name (fst r) /\ Forall ok_cell (snd r) /\ 0 + length SSEs <= length (snd r)) rows).
  { eapply Forall_impl; [|exact HR]. cbn. intros r (A & B & C). split; [now apply name_iff|]. split; [|lia].
    eapply Forall_impl; [|exact B]. intros c [X Y]. split; [now apply number_ok|now apply stars_ok]. }
  set (tS := map (fun s => (repeat " "%char (10 - length s), s, txt "  ")) SSEs).
  set (tR := fun r : text * list (text * text) => map (fun c => (repeat " "%char (10 - length (fst c)), cell c, repeat " "%char (2 - length (snd c)))) (snd r)).
  set (txt3 := fun q : text * text * text => fst (fst q) ++ snd (fst q) ++ snd q).
  assert (ES : map (fun s => padl 10 s ++ txt "  ") SSEs = map txt3 tS).
  { unfold tS. rewrite map_map. apply map_ext. intros s. unfold txt3, padl. cbn [fst snd]. now rewrite <- app_assoc. }
  assert (ER : forall r, map (fun c => padl 10 (fst c) ++ padr 2 (snd c)) (snd r) = map txt3 (tR r)).
  { intros r. unfold tR. rewrite map_map. apply map_ext. intros c. unfold txt3, padl, padr, cell. cbn [fst snd]. now rewrite <- !app_assoc. }
  assert (RS : row_line (txt "SSE") SSEs (table_row (txt "SSE") (map txt3 tS)) /\ sse_free (table_row (txt "SSE") (map txt3 tS))).
  { assert (M : map (fun q : text * text * text => snd (fst q)) tS = SSEs) by (unfold tS; rewrite map_map; cbn; apply map_id).
    assert (CH : forall c s, In s (map txt3 tS) -> In c s -> c = " "%char \/ exists s, In s SSEs /\ In c s).
    { intros c s I C. apply in_map_iff in I as (q & <- & I). unfold tS in I. apply in_map_iff in I as (s & <- & I). unfold txt3 in C. cbn [fst snd] in C.
      apply in_app_or in C as [C|C]; [left; apply repeat_spec in C; auto|]. apply in_app_or in C as [C|C]; [right; eauto|]. left. destruct C as [C|[C|[]]]; auto. }
    rewrite Forall_forall in HS. split.
    - rewrite <- M at 1. apply table_row_ok.
      + intros I. apply in_join in I as [I|(s & S1 & S2)]; [discriminate|]. destruct (CH _ s S1 S2) as [C|(z & Z1 & Z2)]; [discriminate|]. destruct (HS z Z1) as (_ & _ & A & _). auto.
      + unfold tS. apply Forall_forall. intros q I. apply in_map_iff in I as (s & <- & I). cbn [fst snd]. destruct (HS s I) as (A & B & _).
        split; [apply repeat_spaces|]. split; [now apply nospace_iff|]. split; auto. repeat constructor.
    - apply no_eq_free. intros I. apply table_row_chars in I as [I|[I|[I|(s & S1 & S2)]]]; try discriminate.
      + cbn in I. intuition discriminate.
      + destruct (CH _ s S1 S2) as [C|(z & Z1 & Z2)]; [discriminate|]. destruct (HS z Z1) as (_ & _ & _ & A). auto. }
  assert (RR : forall r, In r rows -> row_line (fst r) (map cell (snd r)) (table_row (fst r) (map txt3 (tR r))) /\ sse_free (table_row (fst r) (map txt3 (tR r)))).
  { intros r I. rewrite Forall_forall in HR'. destruct (HR' r I) as (A & B & _). rewrite Forall_forall in B.
    assert (M : map (fun q : text * text * text => snd (fst q)) (tR r) = map cell (snd r)) by (unfold tR; rewrite map_map; reflexivity).
    assert (CH : forall c s, In s (map txt3 (tR r)) -> In c s -> c = " "%char \/ is_num c = true \/ is_star c = true).
    { intros c s J C. apply in_map_iff in J as (q & <- & J). unfold tR in J. apply in_map_iff in J as (p & <- & J). unfold txt3 in C. cbn [fst snd] in C.
      apply in_app_or in C as [C|C]; [left; apply repeat_spec in C; auto|]. apply in_app_or in C as [C|C]; [right; apply (cell_chars c p); auto|].
      left. apply repeat_spec in C. auto. }
    split.
    - rewrite <- M. apply table_row_ok.
      + intros J. apply in_join in J as [J|(s & S1 & S2)]; [discriminate|]. destruct (CH _ s S1 S2) as [C|[C|C]]; discriminate.
      + unfold tR. apply Forall_forall. intros q J. apply in_map_iff in J as (p & <- & J). cbn [fst snd]. split; [apply repeat_spaces|].
        split; [|split; [|apply repeat_spaces]].
        * apply Forall_forall. intros c C. destruct (cell_chars c p (B p J) C); [now apply num_not_space|now apply star_not_space].
        * destruct (B p J) as [(sg & d & q' & Eq & _) _]. unfold cell. rewrite Eq. destruct sg; discriminate.
    - apply no_eq_free. intros J. apply table_row_chars in J as [J|[J|[J|(s & S1 & S2)]]]; try discriminate.
      + destruct A as (c & r' & En & L & W). rewrite En in J. destruct J as [J|J]; [subst; discriminate|]. unfold all in W. rewrite Forall_forall in W. specialize (W _ J). discriminate.
      + destruct (CH _ s S1 S2) as [C|[C|C]]; discriminate. }
  assert (TIT : sse_free (lit "Population: " ++ more)).
  { apply no_eq_free. intros I. apply in_app_or in I as [I|I]; auto. cbn in I. intuition discriminate. }
  set (rl := map (fun r => table_row (fst r) (map txt3 (tR r))) rows).
  assert (LN : lit "Final population:" :: pop_lines (lit "Population: " ++ more) SSEs rows (repr_lines (fill_lines groups)) =
    lit "Final population:" :: [lit "Population: " ++ more; []] ++ table_row (txt "SSE") (map txt3 tS) :: [dashes] ++ rl ++ dashes :: txt "Best individual:" :: repr_lines (fill_lines groups) ++ [[]]).
  { unfold pop_lines. rewrite ES. unfold rl. cbn [app]. do 5 f_equal. f_equal. apply map_ext. intros r. now rewrite ER. }
  rewrite LN. clear LN. unfold filerator.
  assert (TB : table_in SSEs (map (fun r : text * list (text * text) => (fst r, map cell (snd r))) rows)
    ([] ++ lit "Final population:" :: [lit "Population: " ++ more; []] ++ table_row (txt "SSE") (map txt3 tS) :: [dashes] ++ rl ++ dashes :: txt "Best individual:" :: repr_lines (fill_lines groups) ++ [[]])).
  { constructor.
    - constructor.
    - exists [], (txt ":"). split; [constructor|reflexivity].
    - constructor; [|constructor; [|constructor]].
      + intros (g & r & Gs & Q). destruct g as [|c g]; [discriminate|]. cbn in Q. injection Q as <- _. inversion Gs; discriminate.
      + intros (g & r & Gs & Q). destruct g; discriminate.
    - apply RS.
    - constructor; [apply dashes_begin|constructor].
    - unfold rl. clear - RR HR'. induction rows as [|r rows IH]; [constructor|]. cbn [map]. inversion HR' as [|? ? (A & _) HR2]; subst. constructor.
      + cbn [fst snd]. split; auto. apply RR. now left.
      + apply IH; auto. intros q I. apply RR. now right.
    - destruct rows; [congruence|discriminate].
    - apply dashes_begin. }
  cbn [app] in TB. cbn [app]. rewrite (table0_spec _ _ _ TB) by (rewrite map_map; exact RD).
  destruct (repr_shape groups num vals V E G) as (rest & mr & ts & tss & R & L & K & _ & M & P).
  assert (PH : phase1 tofloat None (lit "Final population:" :: (lit "Population: " ++ more) :: [] :: table_row (txt "SSE") (map txt3 tS) :: dashes :: rl ++ dashes :: txt "Best individual:" :: repr_lines (fill_lines groups) ++ [[]])
    = ([(xb, readable vals)], Finished)).
  { change (lit "Final population:" :: (lit "Population: " ++ more) :: [] :: table_row (txt "SSE") (map txt3 tS) :: dashes :: rl ++ dashes :: txt "Best individual:" :: repr_lines (fill_lines groups) ++ [[]])
      with ([lit "Final population:"; lit "Population: " ++ more; []; table_row (txt "SSE") (map txt3 tS); dashes] ++ rl ++ [dashes; txt "Best individual:"] ++ repr_lines (fill_lines groups) ++ [[]]).
    rewrite phase1_noise.
    - rewrite phase1_noise.
      + rewrite phase1_noise.
        * rewrite R. cbn [app]. rewrite (phase1_entry tofloat (txt "<") num rest ts tss mr xb); auto.
          -- cbn [tl phase1]. rewrite P, tset_all_nil by now apply readable_nodup. reflexivity.
          -- apply lt_no_sse.
          -- now apply num_all.
          -- destruct rest as [|c r]; [now left|]. right. exists c, r. split; auto. eapply K. reflexivity.
          -- right. exists [], []. split; auto. constructor.
        * constructor; [apply dashes_free|]. constructor; [|constructor]. apply no_eq_free. intros I. cbn in I. intuition discriminate.
      + unfold rl. apply Forall_forall. intros l I. apply in_map_iff in I as (r & <- & I). now apply RR.
    - constructor; [apply no_eq_free; intros I; cbn in I; intuition discriminate|]. constructor; [exact TIT|]. constructor; [apply no_eq_free; intros []|].
      constructor; [apply RS|]. constructor; [apply dashes_free|constructor]. }
  match goal with |- context [match ?p with (_, _) => _ end] => change p with (phase1 tofloat None (lit "Final population:" :: (lit "Population: " ++ more) :: [] :: table_row (txt "SSE") (map txt3 tS) :: dashes :: rl ++ dashes :: txt "Best individual:" :: repr_lines (fill_lines groups) ++ [[]])) end.
  rewrite PH.
  match goal with |- context [columns ?a ?b ?c ?d] => change (columns a b c d) with (columns tofloat (map (fun r : text * list (text * text) => (fst r, map cell (snd r))) rows) 0 SSEs) end.
  rewrite (columns_spec tofloat ([], []) rows SSEs xs 0); auto.
  eexists. split; [reflexivity|]. split; [rewrite map_length, combine_length, seq_length; lia|]. intros k x Ek. exact (columns_nth F (fun k => column ([], []) k rows) xs 0 k x Ek).
Qed.
Print Assumptions C66_population.
Example C66_ex : let lines := lit "Final population:" :: pop_lines (lit "Population: 2 individuals") [lit "7.5"; lit "12.0"]
    [(lit "alpha", [(lit "1", lit "*"); (lit "2", [])]); (lit "b_2", [(lit "-3", []); (lit "4e+05", lit "**")])] (repr_lines [lit "SSE=7.5 alpha=1* b_2=-3"]) in
  nth_error (map string_of_list_ascii lines) 5 = Some "      alpha |          1*           2  "%string /\
  filerator ex_float lines =
    ([(7, [(lit "alpha", (lit "1", lit "*")); (lit "b_2", (lit "-3", []))]);
      (7, [(lit "alpha", (lit "1", lit "*")); (lit "b_2", (lit "-3", []))]);
      (12, [(lit "alpha", (lit "2", [])); (lit "b_2", (lit "4e+05", lit "**"))])], Finished).
Proof. split; vm_compute; reflexivity. Qed.

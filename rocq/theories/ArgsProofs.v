(** * Lemmas for ArgsProps.v *)
From Coq Require Import String Ascii List Bool Arith Lia.
From Verif Require Import Py LogModel LogProofs ArgsModel.
Import ListNotations.
Local Open Scope nat_scope.

(** ** Lines *)
Lemma nonblank_split s : strip s <> [] -> exists g c x, s = g ++ c :: x /\ all is_space g /\ is_space c = false.
Proof.
  induction s as [|a s IH]; intros H; [now cbn in H|]. destruct (is_space a) eqn:E.
  - destruct IH as (g & c & x & -> & G & C).
    { intros Z. apply H. unfold strip in *. cbn [lstrip]. rewrite E. exact Z. }
    exists (a :: g), c, x. split; [reflexivity|]. split; [|exact C]. now constructor.
  - exists [], a, s. split; [reflexivity|]. split; [constructor|exact E].
Qed.
Lemma all_blank s : strip s = [] -> all is_space s.
Proof.
  intros H. destruct (lstrip_split s) as (g & G & E). unfold strip in H.
  assert (L : lstrip (rev (lstrip s)) = []) by (rewrite <- (rev_involutive (lstrip (rev (lstrip s)))), H; reflexivity).
  destruct (lstrip_split (rev (lstrip s))) as (t & T & E2). rewrite L, app_nil_r in E2. rewrite E. apply Forall_app. split; [exact G|].
  rewrite <- (rev_involutive (lstrip s)), E2. apply Forall_rev. exact T.
Qed.
Lemma lstrip_blank s : all is_space s -> lstrip s = [].
Proof. intros A. rewrite <- (app_nil_r s). now rewrite lstrip_gap. Qed.
Lemma lstrip_idem s : lstrip (lstrip s) = lstrip s.
Proof. induction s as [|c s IH]; [reflexivity|]. cbn. destruct (is_space c) eqn:E; [exact IH|]. cbn. now rewrite E. Qed.
Lemma strip_lstrip s : strip (lstrip s) = strip s.
Proof. unfold strip. now rewrite lstrip_idem. Qed.
Lemma strip_app_space r t : all is_space t -> strip (r ++ t) = strip r.
Proof.
  intros T. destruct (list_eq_dec ascii_dec (strip r) []) as [E|E].
  - rewrite E. apply strip_nil. apply Forall_app. split; [exact (all_blank r E)|exact T].
  - destruct (nonblank_split r E) as (g & c & x & -> & G & C). unfold strip. rewrite <- app_assoc. cbn [app]. rewrite !lstrip_app by exact C. rewrite (lstrip_blank g G). cbn [app].
    change (c :: x ++ t) with ((c :: x) ++ t). rewrite rev_app_distr. rewrite lstrip_gap; [reflexivity|]. apply Forall_rev. exact T.
Qed.
Lemma strip_rstrip s : strip (rstrip s) = strip s.
Proof. destruct (rstrip_split s) as (t & T & E). rewrite E at 2. symmetry. now apply strip_app_space. Qed.

Definition no_nl (l : text) : Prop := ~ In nl l.
Lemma split_one l : no_nl l -> split_nl l = [l].
Proof. induction l as [|c l IH]; intros N; [reflexivity|]. cbn [split_nl app]. destruct (Ascii.eqb_spec c nl) as [->|_]; [destruct N; now left|]. rewrite IH; [reflexivity|]. intros I. apply N. now right. Qed.
Lemma split_cons l s : no_nl l -> split_nl (l ++ nl :: s) = l :: split_nl s.
Proof. induction l as [|c l IH]; intros N; [reflexivity|]. cbn [split_nl app]. destruct (Ascii.eqb_spec c nl) as [->|_]; [destruct N; now left|]. rewrite IH; [reflexivity|]. intros I. apply N. now right. Qed.
Lemma split_join ls : ls <> [] -> Forall no_nl ls -> split_nl (join [nl] ls) = ls.
Proof.
  induction ls as [|l ls IH]; intros NE F; [congruence|]. inversion F as [|? ? F1 F2]; subst. destruct ls as [|m ls]; [now apply split_one|].
  change (join [nl] (l :: m :: ls)) with (l ++ nl :: join [nl] (m :: ls)). rewrite split_cons by exact F1. rewrite IH; [reflexivity|discriminate|exact F2].
Qed.
Lemma join_cons l ls : ls <> [] -> join [nl] (l :: ls) = l ++ nl :: join [nl] ls.
Proof. destruct ls; [congruence|reflexivity]. Qed.
Lemma join_snoc ls x : ls <> [] -> join [nl] (ls ++ [x]) = join [nl] ls ++ nl :: x.
Proof.
  induction ls as [|l ls IH]; intros NE; [congruence|]. destruct ls as [|m ls]; [reflexivity|]. cbn [app] in *. rewrite join_cons by (destruct ls; discriminate).
  rewrite IH by discriminate. rewrite (join_cons l (m :: ls)) by discriminate. now rewrite <- app_assoc.
Qed.
Lemma join_rev ls : rev (join [nl] ls) = join [nl] (rev (map (@rev ascii) ls)).
Proof.
  induction ls as [|l ls IH]; [reflexivity|]. destruct ls as [|m ls]; [reflexivity|]. rewrite join_cons by discriminate. rewrite rev_app_distr. cbn [map rev] in *.
  rewrite join_snoc by (destruct (rev (map (@rev ascii) ls)); discriminate). rewrite <- IH. cbn [rev]. now rewrite <- app_assoc.
Qed.
Lemma nl_space : is_space nl = true. Proof. reflexivity. Qed.
Lemma lstrip_lines b m ms : Forall (fun l => strip l = []) b -> strip m <> [] -> lstrip (join [nl] (b ++ m :: ms)) = join [nl] (lstrip m :: ms).
Proof.
  intros B M. induction b as [|l b IH].
  - cbn [app]. destruct (nonblank_split m M) as (g & c & x & -> & G & C). destruct ms as [|n ms].
    + reflexivity.
    + rewrite !join_cons by discriminate. rewrite <- app_assoc. cbn [app]. rewrite !lstrip_app by exact C. rewrite (lstrip_blank g G). reflexivity.
  - inversion B as [|? ? B1 B2]; subst. cbn [app]. rewrite join_cons by (destruct b; discriminate).
    change (l ++ nl :: join [nl] (b ++ m :: ms)) with (l ++ [nl] ++ join [nl] (b ++ m :: ms)). rewrite app_assoc. rewrite lstrip_gap; [now apply IH|].
    apply Forall_app. split; [exact (all_blank l B1)|]. constructor; [reflexivity|constructor].
Qed.
Lemma rev_blank l : strip l = [] -> strip (rev l) = [].
Proof. intros H. apply strip_nil. apply Forall_rev. exact (all_blank l H). Qed.
Lemma rev_nonblank l : strip l <> [] -> strip (rev l) <> [].
Proof. intros H Z. apply H. rewrite <- (rev_involutive l). now apply rev_blank. Qed.
Lemma no_nl_lstrip l : no_nl l -> no_nl (lstrip l).
Proof. intros N I. apply N. now apply lstrip_in. Qed.
Lemma lines_spec b0 m ms b1 : Forall (fun l => strip l = []) b0 -> Forall (fun l => strip l = []) b1 -> strip m <> [] -> strip (last (m :: ms) []) <> [] -> Forall no_nl (m :: ms) ->
  exists ls, split_nl (strip (join [nl] (b0 ++ (m :: ms) ++ b1))) = ls /\ map strip ls = map strip (m :: ms).
Proof.
  intros B0 B1 M Z N. unfold strip at 1. cbn [app]. rewrite lstrip_lines by auto. rewrite join_rev.
  assert (EX : exists init z, lstrip m :: ms = init ++ [z] /\ strip z <> [] /\ map strip (lstrip m :: ms) = map strip (m :: ms) /\ Forall no_nl (lstrip m :: ms)).
  { exists (removelast (lstrip m :: ms)), (last (lstrip m :: ms) []). split; [apply app_removelast_last; discriminate|]. split; [|split].
    - destruct ms as [|n ms]; [cbn [last]; now rewrite strip_lstrip|exact Z].
    - cbn [map]. now rewrite strip_lstrip.
    - inversion N as [|? ? N1 N2]; subst. constructor; [now apply no_nl_lstrip|exact N2]. }
  destruct EX as (init & z & E & Zn & MS & NN). change (lstrip m :: ms ++ b1) with ((lstrip m :: ms) ++ b1). rewrite E in *.
  rewrite !map_app, !rev_app_distr. cbn [map rev app]. rewrite lstrip_lines.
  - rewrite join_rev. cbn [map rev]. rewrite map_rev, rev_involutive, map_map. rewrite (map_ext _ (fun x : text => x)) by (intros; apply rev_involutive). rewrite map_id.
    exists (init ++ [rev (lstrip (rev z))]). apply Forall_app in NN as [NI NZ]. inversion NZ as [|? ? NZ1 _]; subst. split.
    + apply split_join; [destruct init; discriminate|]. apply Forall_app. split; [exact NI|]. constructor; [|constructor]. intros I. apply NZ1. now apply rstrip_in.
    + change (strip m :: map strip ms) with (map strip (m :: ms)). rewrite <- MS. rewrite !map_app. cbn [map]. f_equal. f_equal. apply strip_rstrip.
  - apply Forall_rev. rewrite Forall_map. eapply Forall_impl; [|exact B1]. intros l H. now apply rev_blank.
  - now apply rev_nonblank.
Qed.

(** ** Paragraphs *)
Section Paras.
Variable fill : text -> text.
Definition para (g : list text) : text := fill (join (txt " ") (map strip g)).
Lemma paras_map a ls ls' : map strip ls = map strip ls' -> paras_loop fill a ls = paras_loop fill a ls'.
Proof.
  revert a ls'. induction ls as [|l ls IH]; intros a [|l' ls'] E; try discriminate; [reflexivity|]. injection E as E1 E2. cbn [paras_loop]. rewrite E1.
  destruct (strip l') as [|c x].
  - now rewrite (IH [] ls' E2).
  - assert (Q := IH (a ++ [c :: x]) ls' E2). destruct ls as [|k ls], ls' as [|k' ls']; try discriminate; [reflexivity|exact Q].
Qed.
Lemma paras_group g a b rest : Forall (fun l => strip l <> []) g -> strip b = [] ->
  paras_loop fill a (g ++ b :: rest) = fill (join (txt " ") (a ++ map strip g)) :: paras_loop fill [] rest.
Proof.
  revert a. induction g as [|l g IH]; intros a F B.
  - cbn [app paras_loop map]. rewrite B, app_nil_r. reflexivity.
  - inversion F as [|? ? F1 F2]; subst. cbn [app paras_loop map]. destruct (strip l) as [|c x] eqn:E; [congruence|].
    destruct (g ++ b :: rest) as [|k r] eqn:G; [destruct g; discriminate|]. rewrite IH by auto. now rewrite <- app_assoc.
Qed.
Lemma paras_last g a : g <> [] -> Forall (fun l => strip l <> []) g -> paras_loop fill a g = [fill (join (txt " ") (a ++ map strip g))].
Proof.
  revert a. induction g as [|l g IH]; intros a NE F; [congruence|]. inversion F as [|? ? F1 F2]; subst. cbn [paras_loop map]. destruct (strip l) as [|c x] eqn:E; [congruence|].
  destruct g as [|k g]; [reflexivity|]. rewrite IH by (auto; discriminate). now rewrite <- app_assoc.
Qed.
Lemma paras_all gs : forall g, Forall (fun g => g <> [] /\ Forall (fun l => strip l <> []) g) (g :: map snd gs) -> Forall (fun bg => strip (fst bg) = []) gs ->
  paras_loop fill [] (g ++ flat_map (fun bg => fst bg :: snd bg) gs) = map para (g :: map snd gs).
Proof.
  induction gs as [|[b h] gs IH]; intros g F B; inversion F as [|? ? [NE F1] F2]; subst.
  - cbn [flat_map map]. rewrite app_nil_r. now apply paras_last.
  - inversion B as [|? ? B1 B2]; subst. cbn [flat_map fst snd app]. rewrite paras_group by auto. rewrite IH by auto. reflexivity.
Qed.
End Paras.

(** ** Substrings *)
Lemma has_sub_spec sub s : has_sub sub s = true <-> exists a b, s = a ++ sub ++ b.
Proof.
  induction s as [|c s IH].
  - cbn. rewrite orb_false_r. rewrite strip_prefix_iff. split.
    + intros (r & E). exists [], r. exact E.
    + intros (a & b & E). symmetry in E. apply app_eq_nil in E as [-> E]. exists b. now symmetry.
  - cbn [has_sub]. rewrite orb_true_iff, IH, strip_prefix_iff. split.
    + intros [(r & E)|(a & b & E)]; [exists [], r; exact E|exists (c :: a), b; now rewrite E].
    + intros ([|x a] & b & E); [left; now exists b|right]. injection E as -> E. now exists a, b.
Qed.
Lemma format_plain used dest s : ~ In lb s -> ~ In rb s -> format1 used dest s = Ok s.
Proof.
  induction s as [|c s IH]; intros L R; [reflexivity|]. cbn [format1 app]. destruct (Ascii.eqb_spec c lb) as [->|_]; [destruct L; now left|].
  destruct (Ascii.eqb_spec c rb) as [->|_]; [destruct R; now left|]. rewrite IH; [reflexivity| |]; intros I; [apply L|apply R]; now right.
Qed.
Lemma format_app used dest a s : ~ In lb a -> ~ In rb a -> format1 used dest (a ++ s) = bind (format1 used dest s) (fun r => Ok (a ++ r)).
Proof.
  induction a as [|c a IH]; intros L R; [cbn; destruct (format1 used dest s); reflexivity|]. cbn [format1 app]. destruct (Ascii.eqb_spec c lb) as [->|_]; [destruct L; now left|].
  destruct (Ascii.eqb_spec c rb) as [->|_]; [destruct R; now left|]. rewrite IH; [destruct (format1 used dest s); reflexivity| |]; intros I; [apply L|apply R]; now right.
Qed.

(** ** Declarations *)
Lemma teqb_spec a b : teqb a b = true <-> a = b.
Proof. unfold teqb. destruct (list_eq_dec ascii_dec a b); split; congruence. Qed.
Definition uniq (ds : list decl) : Prop := forall i j d e c s c' s', nth_error ds i = Some d -> nth_error ds j = Some e ->
  option_of d = Some (c, s) -> option_of e = Some (c', s') -> c = c' \/ s = s' -> i = j.
Definition nohelp (ds : list decl) : Prop := forall d c s, In d ds -> option_of d = Some (c, s) -> c <> "h"%char /\ s <> txt "help".
Lemma uniq_in ds d e c s c' s' : uniq ds -> In d ds -> In e ds -> option_of d = Some (c, s) -> option_of e = Some (c', s') -> c = c' \/ s = s' -> d = e.
Proof.
  intros U I J D E H. apply In_nth_error in I as (i & I). apply In_nth_error in J as (j & J). rewrite (U i j d e c s c' s' I J D E H) in I. congruence.
Qed.
Lemma uniq_tail d ds : uniq (d :: ds) -> uniq ds.
Proof. intros U i j x y c s c' s' X Y. specialize (U (S i) (S j) x y c s c' s' X Y). intros A B C. specialize (U A B C). lia. Qed.
Lemma add_uniq st d st' r : uniq (decls st) -> nohelp (decls st) -> add_argument st d = (st', r) -> uniq (decls st') /\ nohelp (decls st') /\
  parsed st' = parsed st /\ parses st' = parses st /\ (r = Ok tt -> decls st' = decls st ++ [d]) /\ (r <> Ok tt -> st' = st).
Proof.
  intros U H E. unfold add_argument in E. destruct (option_of d) as [[c s]|] eqn:O.
  - destruct (Ascii.eqb_spec c "h") as [->|NC]; [injection E as <- <-; split; [exact U|split; [exact H|split; [reflexivity|split; [reflexivity|split; [discriminate|reflexivity]]]]]|].
    cbn [orb] in E. destruct (teqb s (txt "help")) eqn:NS; [injection E as <- <-; split; [exact U|split; [exact H|split; [reflexivity|split; [reflexivity|split; [discriminate|reflexivity]]]]]|].
    cbn [orb] in E. destruct (existsb _ _) eqn:X; injection E as <- <-; [split; [exact U|split; [exact H|split; [reflexivity|split; [reflexivity|split; [discriminate|reflexivity]]]]]|].
    assert (FR : forall e c' s', In e (decls st) -> option_of e = Some (c', s') -> c <> c' /\ s <> s').
    { intros e c' s' I Oe. assert (F : conflict e c s = false). { destruct (conflict e c s) eqn:F; [|reflexivity]. exfalso. rewrite (proj2 (existsb_exists _ _)) in X; [discriminate|]. now exists e. }
      unfold conflict in F. rewrite Oe in F. apply orb_false_iff in F as [F1 F2]. split; intros ->; [now rewrite Ascii.eqb_refl in F1|].
      rewrite (proj2 (teqb_spec s' s') eq_refl) in F2. discriminate. }
    cbn [decls parsed parses]. split; [|split; [|split; [reflexivity|split; [reflexivity|split; [reflexivity|congruence]]]]].
    + intros i j x y cx sx cy sy X1 Y1 Ox Oy Q. destruct (Nat.lt_ge_cases i (length (decls st))) as [Li|Li]; destruct (Nat.lt_ge_cases j (length (decls st))) as [Lj|Lj].
      * rewrite nth_error_app1 in X1, Y1 by assumption. exact (U i j x y cx sx cy sy X1 Y1 Ox Oy Q).
      * rewrite nth_error_app1 in X1 by assumption. rewrite nth_error_app2 in Y1 by assumption. destruct (j - length (decls st)) as [|[|]] eqn:J; try discriminate. injection Y1 as <-.
        rewrite O in Oy. injection Oy as <- <-. destruct (FR x cx sx (nth_error_In _ _ X1) Ox) as [A B]. destruct Q as [Q|Q]; congruence.
      * rewrite nth_error_app2 in X1 by assumption. rewrite nth_error_app1 in Y1 by assumption. destruct (i - length (decls st)) as [|[|]] eqn:J; try discriminate. injection X1 as <-.
        rewrite O in Ox. injection Ox as <- <-. destruct (FR y cy sy (nth_error_In _ _ Y1) Oy) as [A B]. destruct Q as [Q|Q]; congruence.
      * rewrite nth_error_app2 in X1, Y1 by assumption. destruct (i - length (decls st)) as [|[|]] eqn:I'; try discriminate. destruct (j - length (decls st)) as [|[|]] eqn:J'; try discriminate. lia.
    + intros e c' s' I Oe. apply in_app_or in I as [I|[<-|[]]]; [eauto|]. rewrite O in Oe. injection Oe as <- <-. split; [exact NC|]. intros ->. discriminate.
  - injection E as <- <-. cbn [decls parsed parses]. split; [|split; [|split; [reflexivity|split; [reflexivity|split; [reflexivity|congruence]]]]].
    + intros i j x y cx sx cy sy X1 Y1 Ox Oy Q.
      assert (NL : forall k z cz sz, nth_error (decls st ++ [d]) k = Some z -> option_of z = Some (cz, sz) -> nth_error (decls st) k = Some z).
      { intros k z cz sz Z Oz. destruct (Nat.lt_ge_cases k (length (decls st))) as [Lk|Lk]; [now rewrite nth_error_app1 in Z by assumption|].
        rewrite nth_error_app2 in Z by assumption. destruct (k - length (decls st)) as [|[|]]; try discriminate. injection Z as <-. congruence. }
      exact (U i j x y cx sx cy sy (NL _ _ _ _ X1 Ox) (NL _ _ _ _ Y1 Oy) Ox Oy Q).
    + intros e c' s' I Oe. apply in_app_or in I as [I|[<-|[]]]; [eauto|]. congruence.
Qed.

(** ** Parsing *)
Lemma lookup_set_same c v l w : lookup c l = Some w -> lookup c (set_opt c v l) = Some v.
Proof. induction l as [|[d x] l IH]; cbn; [discriminate|]. destruct (Ascii.eqb c d) eqn:E; cbn; rewrite E; auto. Qed.
Lemma lookup_set_other c c' v l : c <> c' -> lookup c (set_opt c' v l) = lookup c l.
Proof.
  intros N. induction l as [|[d x] l IH]; cbn; [reflexivity|]. destruct (Ascii.eqb_spec c' d) as [->|]; cbn.
  - destruct (Ascii.eqb_spec c d); [congruence|]. reflexivity.
  - now rewrite IH.
Qed.
Section Parse.
Variable conv : nat -> text -> res V.
(** a token gives a declared option this value *)
Definition gives (d : decl) (t : tok) (v : V) : Prop :=
  match d with
  | DOpt _ _ default _ => exists s, targ t = Some s /\ convert conv default s = Ok v
  | DFlag _ _ _ => targ t = None /\ v = VBool true
  | DPos _ => False
  end.
Lemma parse_tok_spec ds t l l' : parse_tok conv ds t l = Ok l' ->
  exists d c s v, In d ds /\ option_of d = Some (c, s) /\ is_for t c s = true /\ gives d t v /\ l' = set_opt c v l.
Proof.
  induction ds as [|d ds IH]; [discriminate|]. cbn [parse_tok]. destruct d as [c s default h|c s h|h].
  - destruct (is_for t c s) eqn:F.
    + destruct (targ t) as [a|] eqn:A; [|discriminate]. destruct (convert conv default a) as [v|] eqn:C; [|discriminate]. intros E. injection E as <-.
      exists (DOpt c s default h), c, s, v. split; [now left|]. split; [reflexivity|]. split; [exact F|]. split; [exists a; now rewrite C|reflexivity].
    + intros E. destruct (IH E) as (d & c' & s' & v & I & R). exists d, c', s', v. split; [now right|exact R].
  - destruct (is_for t c s) eqn:F.
    + destruct (targ t) as [a|] eqn:A; [discriminate|]. intros E. injection E as <-.
      exists (DFlag c s h), c, s, (VBool true). split; [now left|]. split; [reflexivity|]. split; [exact F|]. split; [split; [exact A|reflexivity]|reflexivity].
    + intros E. destruct (IH E) as (d & c' & s' & v & I & R). exists d, c', s', v. split; [now right|exact R].
  - intros E. destruct (IH E) as (d & c' & s' & v & I & R). exists d, c', s', v. split; [now right|exact R].
Qed.
Lemma for_both t c s c' s' : is_for t c s = true -> is_for t c' s' = true -> c = c' \/ s = s'.
Proof.
  destruct t as [x a|x a]; cbn; intros A B.
  - apply Ascii.eqb_eq in A, B. left. congruence.
  - apply teqb_spec in A, B. right. congruence.
Qed.
Definition value_of (d : decl) (v0 : V) (ts : list tok) (v : V) : Prop :=
  match rev ts with [] => v = v0 | t :: _ => gives d t v end.
Lemma parse_toks_spec ds ts : forall l l' d c s v0, uniq ds -> In d ds -> option_of d = Some (c, s) -> lookup c l = Some v0 -> parse_toks conv ds ts l = Ok l' ->
  exists v, lookup c l' = Some v /\ value_of d v0 (filter (fun t => is_for t c s) ts) v.
Proof.
  induction ts as [|t ts IH]; intros l l' d c s v0 U I O L E; cbn [parse_toks] in E.
  - injection E as <-. exists v0. split; [exact L|reflexivity].
  - destruct (is_help t) eqn:H; [discriminate|]. destruct (parse_tok conv ds t l) as [l1|] eqn:P; [|discriminate]. cbn [bind] in E.
    apply parse_tok_spec in P as (d' & c' & s' & v' & I' & O' & F' & G' & ->). cbn [filter]. destruct (is_for t c s) eqn:F.
    + assert (d = d') by (eapply (uniq_in ds); eauto; eapply for_both; eauto). subst d'. rewrite O in O'. injection O' as <- <-.
      destruct (IH _ _ d c s v' U I O (lookup_set_same _ _ _ _ L) E) as (v & Lv & Vv). exists v. split; [exact Lv|]. unfold value_of in *. cbn [rev].
      destruct (rev (filter (fun t => is_for t c s) ts)) as [|x r]; [cbn; now subst|exact Vv].
    + assert (N : c <> c').
      { intros ->. assert (d = d') by (eapply (uniq_in ds); eauto). subst d'. rewrite O in O'. injection O' as <-. congruence. }
      apply (IH (set_opt c' v' l) l' d c s v0); auto. now rewrite lookup_set_other.
Qed.
Lemma lookup_set_none c c' v l : lookup c l = None -> lookup c (set_opt c' v l) = None.
Proof. induction l as [|[d x] l IH]; cbn; [reflexivity|]. destruct (Ascii.eqb c d) eqn:E; [discriminate|]. intros H. destruct (Ascii.eqb c' d) eqn:E'; cbn; rewrite E; auto. Qed.
Lemma parse_toks_none ds ts : forall l l' c, lookup c l = None -> parse_toks conv ds ts l = Ok l' -> lookup c l' = None.
Proof.
  induction ts as [|t ts IH]; intros l l' c L E; cbn [parse_toks] in E; [congruence|]. destruct (is_help t); [discriminate|].
  destruct (parse_tok conv ds t l) as [l1|] eqn:P; [|discriminate]. apply parse_tok_spec in P as (d' & c' & s' & v' & _ & _ & _ & _ & ->). eapply IH; [|exact E]. now apply lookup_set_none.
Qed.
Lemma parse_no_help ds ts l l' : parse_toks conv ds ts l = Ok l' -> Forall (fun t => is_help t = false) ts.
Proof.
  revert l. induction ts as [|t ts IH]; intros l E; [constructor|]. cbn [parse_toks] in E. destruct (is_help t) eqn:H; [discriminate|].
  destruct (parse_tok conv ds t l) as [l1|]; [|discriminate]. constructor; eauto.
Qed.
End Parse.
Definition default_of (d : decl) : V := match d with DOpt _ _ v _ => v | _ => VBool false end.
Lemma lookup_defaults ds d c s : uniq ds -> In d ds -> option_of d = Some (c, s) -> lookup c (defaults ds) = Some (default_of d).
Proof.
  induction ds as [|e ds IH]; intros U I O; [destruct I|]. destruct I as [->|I].
  - destruct d as [x y v h|x y h|h]; try discriminate; injection O as <- <-; cbn; rewrite Ascii.eqb_refl; reflexivity.
  - specialize (IH (uniq_tail _ _ U) I O). destruct (option_of e) as [[c' s']|] eqn:Oe.
    + assert (N : c <> c').
      { intros ->. apply In_nth_error in I as (i & I). specialize (U 0 (S i) e d c' s' c' s eq_refl I Oe O (or_introl eq_refl)). discriminate. }
      destruct e as [x y v h|x y h|h]; try discriminate; injection Oe as -> ->; cbn; (destruct (Ascii.eqb_spec c c'); [congruence|exact IH]).
    + destruct e; try discriminate. exact IH.
Qed.
Lemma lookup_defaults_none ds c : (forall d s, In d ds -> option_of d = Some (c, s) -> False) -> lookup c (defaults ds) = None.
Proof.
  induction ds as [|e ds IH]; intros N; [reflexivity|]. assert (IH' : lookup c (defaults ds) = None) by (apply IH; intros d s I; apply (N d s); now right).
  destruct e as [x y v h|x y h|h]; cbn; [| |exact IH'].
  - destruct (Ascii.eqb_spec c x) as [->|_]; [|exact IH']. exfalso. eapply N; [now left|reflexivity].
  - destruct (Ascii.eqb_spec c x) as [->|_]; [|exact IH']. exfalso. eapply N; [now left|reflexivity].
Qed.

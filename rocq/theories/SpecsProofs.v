(** Proofs about SpecsModel.v *)
From Coq Require Import Ascii List Bool Arith ZArith NArith Lia.
From Verif Require Import Py SpecsModel.
Import ListNotations.
Local Open Scope nat_scope.

Lemma str_eqb_spec : forall a b, reflect (a = b) (str_eqb a b).
Proof.
  induction a as [|x a IH]; destruct b as [|y b]; simpl; try (constructor; congruence).
  destruct (Ascii.eqb_spec x y) as [->|N]; cbn [andb].
  - destruct (IH b) as [->|N]; constructor; congruence.
  - constructor. congruence.
Qed.
Lemma key_eqb_spec : forall a b, reflect (a = b) (key_eqb a b).
Proof.
  destruct a as [a|a], b as [b|b]; simpl; try (constructor; congruence).
  - destruct (str_eqb_spec a b) as [->|N]; constructor; congruence.
  - destruct (N.eqb_spec a b) as [->|N]; constructor; congruence.
Qed.
Lemma aget_aset : forall K (eqb : K -> K -> bool), (forall a b, reflect (a = b) (eqb a b)) ->
  forall d k v k', aget eqb (aset eqb d k v) k' = if eqb k' k then Some v else aget eqb d k'.
Proof.
  intros K eqb R. induction d as [|[a x] d IH]; intros k v k'; simpl; auto.
  destruct (R k a) as [->|N]; simpl.
  - destruct (R k' a) as [->|N']; auto.
  - rewrite IH. destruct (R k' a) as [->|N']; auto. destruct (R a k); congruence.
Qed.
Lemma dget_dset : forall d k v k', dget (dset d k v) k' = if key_eqb k' k then Some v else dget d k'.
Proof. apply aget_aset. apply key_eqb_spec. Qed.
Lemma key_eqb_refl : forall k, key_eqb k k = true.
Proof. intros. destruct (key_eqb_spec k k); congruence. Qed.

(** ** C50 *)
Definition prefix (a b : list key) : Prop := exists r, b = a ++ r.
Definition comparable (a b : list key) : Prop := prefix a b \/ prefix b a.
Definition clear_path (d : list (key * val)) (ks : list key) : Prop :=
  forall p r l, ks = p ++ r -> r <> [] -> p <> [] -> get_in d p <> Ok (Leaf l).

Lemma comparable_cons : forall k a b, comparable (k :: a) (k :: b) <-> comparable a b.
Proof.
  intros k a b. unfold comparable, prefix. split; intros [[r H]|[r H]]; simpl in *.
  - left. exists r. congruence.
  - right. exists r. congruence.
  - left. exists r. simpl. congruence.
  - right. exists r. simpl. congruence.
Qed.
Lemma get_in_dct : forall d k s r, dget d k = Some (Dct s) -> r <> [] -> get_in d (k :: r) = get_in s r.
Proof. intros d k s r E N. cbn [get_in]. rewrite E. destruct r; [congruence|reflexivity]. Qed.

Lemma ds_add_ok : forall ks d v, ks <> [] -> clear_path d ks -> exists d',
  ds_add d v ks = Ok d' /\ get_in d' ks = Ok v /\
  (forall ks', ks' <> [] -> ~ comparable ks ks' -> get_in d' ks' = get_in d ks') /\
  (forall p r, ks = p ++ r -> p <> [] -> r <> [] -> exists s, get_in d' p = Ok (Dct s)).
Proof.
  induction ks as [|k ks IH]; intros d v N C; [congruence|].
  assert (Other : forall x ks', ks' <> [] -> ~ comparable (k :: ks) ks' -> (forall r', ks' <> k :: r') ->
     get_in (dset d k x) ks' = get_in d ks').
  { intros x ks' N' _ Hk. destruct ks' as [|k' r']; [congruence|]. cbn [get_in]. rewrite dget_dset.
    destruct (key_eqb_spec k' k) as [->|_]; [|reflexivity]. exfalso. eapply Hk; eauto. }
  destruct ks as [|k2 ks].
  - exists (dset d k v). cbn [ds_add]. split; auto. split; [|split].
    + cbn [get_in]. rewrite dget_dset, key_eqb_refl. now destruct v.
    + intros ks' N' Hc. apply Other; auto. intros r' ->. apply Hc. left. exists r'. reflexivity.
    + intros p r E Np Nr. destruct p as [|a p]; [congruence|]. injection E as _ E. symmetry in E. apply app_eq_nil in E. tauto.
  - assert (Sub : forall s, (dget d k = Some (Dct s) \/ dget d k = None /\ s = []) -> clear_path s (k2 :: ks)).
    { intros s Hs p r l E Nr Np G. apply (C (k :: p) r l); [simpl; congruence|auto|discriminate|].
      destruct Hs as [Hs|[_ ->]].
      - now rewrite (get_in_dct _ _ s).
      - destruct p; [congruence|]. discriminate. }
    assert (Main : forall s, (dget d k = Some (Dct s) \/ dget d k = None /\ s = []) -> exists d',
      bind (ds_add s v (k2 :: ks)) (fun s => Ok (dset d k (Dct s))) = Ok d' /\ get_in d' (k :: k2 :: ks) = Ok v /\
      (forall ks', ks' <> [] -> ~ comparable (k :: k2 :: ks) ks' -> get_in d' ks' = get_in d ks') /\
      (forall p r, k :: k2 :: ks = p ++ r -> p <> [] -> r <> [] -> exists s, get_in d' p = Ok (Dct s))).
    { intros s Hs. destruct (IH s v) as (s' & E1 & E2 & E3 & E4); [discriminate|auto|].
      rewrite E1. exists (dset d k (Dct s')). split; [reflexivity|].
      assert (D : dget (dset d k (Dct s')) k = Some (Dct s')) by (rewrite dget_dset, key_eqb_refl; reflexivity).
      split; [|split].
      - rewrite (get_in_dct _ _ s'); auto. discriminate.
      - intros ks' N' Hc. destruct ks' as [|k' r']; [congruence|].
        destruct (key_eqb_spec k' k) as [->|Nk].
        + rewrite comparable_cons in Hc. assert (Nr : r' <> []).
          { intros ->. apply Hc. right. exists (k2 :: ks). reflexivity. }
          rewrite (get_in_dct _ _ s') by auto. rewrite E3 by auto. destruct Hs as [Hs|[Hs ->]].
          * now rewrite (get_in_dct d _ s).
          * cbn [get_in]. rewrite Hs. destruct r'; [congruence|reflexivity].
        + apply Other; auto. intros r K. congruence.
      - intros p r E Np Nr. destruct p as [|a p]; [congruence|]. injection E as <- E.
        destruct p as [|b p].
        + exists s'. cbn [get_in]. now rewrite D.
        + rewrite (get_in_dct _ _ s') by (auto; discriminate). eapply E4; eauto. discriminate. }
    change (ds_add d v (k :: k2 :: ks)) with
      (match dget d k with
      | None => bind (ds_add [] v (k2 :: ks)) (fun s => Ok (dset d k (Dct s)))
      | Some (Dct s) => bind (ds_add s v (k2 :: ks)) (fun s => Ok (dset d k (Dct s)))
      | Some (Leaf l) =>
        match ks with
        | _ :: _ => Raise AttributeError
        | [] =>
          match l, k2, v with
          | LSeq l, KInt z, Leaf (LOne x) =>
            if (N.to_nat z <? length l) then Ok (dset d k (Leaf (LSeq (upd (N.to_nat z) x l)))) else Raise IndexError
          | LSeq l, KInt z, _ => Raise UserError
          | _, _, _ => Raise TypeError
          end
        end
      end).
    destruct (dget d k) as [[l|s]|] eqn:E.
    + exfalso. apply (C [k] (k2 :: ks) l); try reflexivity; try discriminate. cbn [get_in]. now rewrite E.
    + apply Main. auto.
    + apply Main. auto.
Qed.

(** adding entries one after the other: SpecsLoader's calls of dict_add *)
Fixpoint ds_adds (d : list (key * val)) (es : list (val * list key)) : res (list (key * val)) :=
  match es with
  | [] => Ok d
  | (v, ks) :: es => bind (ds_add d v ks) (fun d => ds_adds d es)
  end.
Lemma ds_adds_app : forall es es' d, ds_adds d (es ++ es') = bind (ds_adds d es) (fun d => ds_adds d es').
Proof.
  induction es as [|[v ks] es IH]; intros es' d; cbn [ds_adds app]; [reflexivity|].
  destruct (ds_add d v ks); cbn [bind]; auto.
Qed.

(** no stored path is a proper prefix of another one *)
Definition prefix_free (es : list (val * list key)) : Prop :=
  (forall v ks, In (v, ks) es -> ks <> []) /\
  (forall v ks v' ks', In (v, ks) es -> In (v', ks') es -> prefix ks ks' -> ks = ks').

Lemma key_dec : forall a b : key, {a = b} + {a <> b}.
Proof. intros a b. destruct (key_eqb_spec a b); auto. Qed.
Lemma prefix_dec : forall a b, prefix a b \/ ~ prefix a b.
Proof.
  induction a as [|x a IH]; intros b.
  - left. exists b. reflexivity.
  - destruct b as [|y b]; [right; intros [r H]; discriminate|].
    destruct (key_dec x y) as [->|N]; [|right; intros [r H]; simpl in H; congruence].
    destruct (IH b) as [[r ->]|H]; [left; exists r; reflexivity|].
    right. intros [r K]. apply H. exists r. simpl in K. congruence.
Qed.

Lemma ds_adds_spec : forall es, prefix_free es -> exists d, ds_adds [] es = Ok d /\
  (forall es1 v ks es2, es = es1 ++ (v, ks) :: es2 -> (forall w, ~ In (w, ks) es2) -> get_in d ks = Ok v) /\
  (forall ks, ks <> [] -> (forall v ks', In (v, ks') es -> ~ comparable ks' ks) -> get_in d ks = Ok (Dct [])) /\
  (forall ks l, get_in d ks = Ok (Leaf l) -> exists v ks', In (v, ks') es /\ prefix ks' ks) /\
  (forall v ks p r, In (v, ks) es -> ks = p ++ r -> p <> [] -> r <> [] -> exists s, get_in d p = Ok (Dct s)).
Proof.
  induction es as [|[v ks] es IH] using rev_ind; intros [PF1 PF2].
  - exists []. split; auto. split; [intros [|? ?]; discriminate|]. split; [intros [|k ks]; intuition; congruence|].
    split; [intros [|k ks]; discriminate|]. intros v ks p r [].
  - destruct IH as (d & E & G1 & G2 & G3 & G4).
    { split; [intros; eapply PF1; rewrite in_app_iff; eauto|intros; eapply PF2; try (rewrite in_app_iff; eauto); auto]. }
    assert (Hin : In (v, ks) (es ++ [(v, ks)])) by (rewrite in_app_iff; simpl; auto).
    destruct (ds_add_ok ks d v) as (d' & A1 & A2 & A3 & A4).
    { eapply PF1; eauto. }
    { intros p r l Ek Nr Np G. destruct (G3 p l G) as (w & q & I & [r' Hq]).
      assert (q = ks). { eapply PF2; [rewrite in_app_iff; eauto|exact Hin|]. exists (r' ++ r). subst. now rewrite <- app_assoc in *. }
      subst. assert (L := f_equal (@length key) H). rewrite !app_length in L.
      destruct r; [congruence|]. simpl in L. lia. }
    exists d'. rewrite ds_adds_app, E. cbn [bind ds_adds]. rewrite A1. split; [reflexivity|].
    split; [|split; [|split]].
    + intros es1 w ks' es2 Hes Hn. destruct es2 as [|[w2 k2] es2 _] using rev_ind.
      * apply app_inj_tail in Hes. destruct Hes as [_ [= <- <-]]. exact A2.
      * rewrite app_comm_cons, app_assoc in Hes. apply app_inj_tail in Hes. destruct Hes as [Hes [= <- <-]].
        destruct (prefix_dec ks ks') as [P|P]; [|destruct (prefix_dec ks' ks) as [P'|P']].
        -- assert (ks = ks'). { eapply PF2; [exact Hin| |exact P]. rewrite in_app_iff. left. rewrite Hes, in_app_iff. right. left. reflexivity. }
           subst. exfalso. apply (Hn v). rewrite in_app_iff. simpl; auto.
        -- assert (ks' = ks). { eapply PF2; [|exact Hin|exact P']. rewrite in_app_iff. left. rewrite Hes, in_app_iff. right. left. reflexivity. }
           subst. exfalso. apply (Hn v). rewrite in_app_iff. simpl; auto.
        -- rewrite A3.
           ++ eapply G1; eauto. intros x Hx. apply (Hn x). rewrite in_app_iff. auto.
           ++ eapply PF1. rewrite in_app_iff. left. rewrite Hes, in_app_iff. right. left. reflexivity.
           ++ unfold comparable. tauto.
    + intros ks' N Hc. rewrite A3; auto.
      * apply G2; auto. intros w q I. eapply Hc. rewrite in_app_iff. eauto.
      * eapply Hc; eauto.
    + intros ks' l G. destruct (prefix_dec ks ks') as [P|P]; [|destruct (prefix_dec ks' ks) as [[r P']|P']].
      * eauto.
      * destruct ks' as [|a ks']; [discriminate|]. destruct r as [|b r].
        { contradiction P. exists []. now rewrite app_nil_r in *. }
        destruct (A4 (a :: ks') (b :: r)) as [s Hs]; auto; try discriminate. congruence.
      * rewrite A3 in G; [|intros ->; discriminate|unfold comparable; tauto].
        destruct (G3 _ _ G) as (w & q & I & Q). exists w, q. rewrite in_app_iff. auto.
    + intros w q p r I Eq Np Nr. apply in_app_iff in I. destruct I as [I|[[= <- <-]|[]]]; [|eapply A4; eauto].
      destruct (G4 w q p r I Eq Np Nr) as [s Hs].
      destruct (prefix_dec ks p) as [[r' P]|P]; [|destruct (prefix_dec p ks) as [[r' P']|P']].
      * exfalso. assert (ks = q). { eapply PF2; [exact Hin|rewrite in_app_iff; left; exact I|]. exists (r' ++ r). subst. now rewrite app_assoc. }
        subst. assert (L := f_equal (@length key) H). rewrite !app_length in L. destruct r; [congruence|]. simpl in L. lia.
      * destruct r' as [|b r']; [contradiction P; exists []; now rewrite app_nil_r in *|].
        eapply A4; eauto. discriminate.
      * exists s. rewrite A3; auto. unfold comparable. tauto.
Qed.

(** ** Text *)
Definition ws_str (w : str) : Prop := Forall (fun c => is_ws c = true) w.
Definition word (t : str) : Prop := t <> [] /\ Forall (fun c => is_ws c = false) t.

Lemma lstrip_dec : forall l, exists w, l = w ++ lstrip l /\ ws_str w.
Proof.
  induction l as [|c l (w & E & W)]; [exists []; split; [reflexivity|constructor]|]. cbn [lstrip].
  destruct (is_ws c) eqn:C.
  - exists (c :: w). split; [simpl; congruence|constructor; auto].
  - exists []. split; [reflexivity|constructor].
Qed.
Lemma lstrip_head : forall l, match lstrip l with c :: _ => is_ws c = false | [] => True end.
Proof. induction l as [|c l IH]; cbn [lstrip]; auto. destruct (is_ws c) eqn:C; auto. Qed.
Lemma split_ws_pre : forall w l, ws_str w -> split_ws [] (w ++ l) = split_ws [] l.
Proof. intros w l H. induction H as [|c w C W IH]; simpl; auto. now rewrite C. Qed.
Lemma split_ws_post : forall l cur w, ws_str w -> split_ws cur (l ++ w) = split_ws cur l.
Proof.
  induction l as [|c l IH]; intros cur w W; simpl.
  - destruct cur; destruct W as [|c w C W]; simpl; auto; rewrite C.
    + rewrite <- (app_nil_r w). now rewrite split_ws_pre.
    + f_equal. rewrite <- (app_nil_r w). now rewrite split_ws_pre.
  - destruct (is_ws c); [destruct cur; rewrite IH; auto|auto].
Qed.
Lemma split_ws_word : forall t cur l, Forall (fun c => is_ws c = false) t -> split_ws cur (t ++ l) = split_ws (rev t ++ cur) l.
Proof.
  induction t as [|c t IH]; intros cur l H; simpl; auto. inversion H; subst. rewrite H2, IH by auto. now rewrite <- app_assoc.
Qed.
Lemma strip_dec : forall l, exists w w', l = w ++ strip l ++ w' /\ ws_str w /\ ws_str w'.
Proof.
  intros l. destruct (lstrip_dec l) as (w & E & W). destruct (lstrip_dec (rev (lstrip l))) as (w' & E' & W').
  exists w, (rev w'). split; [|split; auto].
  - rewrite E at 1. f_equal. unfold strip. rewrite <- rev_app_distr. rewrite <- E'. now rewrite rev_involutive.
  - apply Forall_forall. intros c Hc. rewrite <- in_rev in Hc. unfold ws_str in W'. rewrite Forall_forall in W'. auto.
Qed.
Lemma split_strip : forall l, split_ws [] (strip l) = split_ws [] l.
Proof.
  intros l. destruct (strip_dec l) as (w & w' & E & W & W'). rewrite E at 2. rewrite split_ws_pre by auto.
  now rewrite split_ws_post.
Qed.
Lemma strip_first : forall l, match strip l with c :: _ => is_ws c = false | [] => True end.
Proof.
  intros l. unfold strip. assert (H := lstrip_head l). destruct (lstrip l) as [|c m]; [exact I|].
  cbn [rev]. destruct (lstrip_dec (rev m ++ [c])) as (w & E & W).
  destruct (rev (lstrip (rev m ++ [c]))) as [|a r] eqn:R; auto.
  assert (K : c :: m = (a :: r) ++ rev w).
  { rewrite <- R, <- rev_app_distr, <- E, rev_app_distr, rev_involutive. reflexivity. }
  injection K as -> _. exact H.
Qed.

(** splitting a stripped line: first word and what follows *)
Lemma split_ws_cons : forall l cur t ts, split_ws cur l = t :: ts -> (cur = [] -> match l with c :: _ => is_ws c = false | [] => True end) ->
  exists rest, rev cur ++ l = t ++ rest /\ match rest with c :: _ => is_ws c = true | [] => True end.
Proof.
  induction l as [|c l IH]; intros cur t ts H Hh; simpl in H.
  - destruct cur as [|a cur]; [discriminate|]. injection H as <- <-. exists []. split; auto.
  - destruct (is_ws c) eqn:C.
    + destruct cur as [|a cur]; [specialize (Hh eq_refl); congruence|]. injection H as <- <-.
      exists (c :: l). split; auto.
    + destruct (IH (c :: cur) t ts H) as (rest & E & R); [discriminate|]. exists rest. split; auto.
      rewrite <- E. cbn [rev]. now rewrite <- app_assoc.
Qed.
Lemma strip_word : forall l t ts, split_ws [] l = t :: ts ->
  exists rest, strip l = t ++ rest /\ match rest with c :: _ => is_ws c = true | [] => True end.
Proof.
  intros l t ts H. rewrite <- split_strip in H. apply (split_ws_cons (strip l) [] t ts H). intros _. apply strip_first.
Qed.
Lemma split_ws_words : forall l cur, Forall (fun c => is_ws c = false) cur -> Forall word (split_ws cur l).
Proof.
  assert (Rv : forall cur : str, cur <> [] -> Forall (fun c => is_ws c = false) cur -> word (rev cur)).
  { intros cur N H. split.
    - intros E. apply N. apply (f_equal (@rev ascii)) in E. rewrite rev_involutive in E. exact E.
    - apply Forall_forall. intros c Hc. rewrite <- in_rev in Hc. rewrite Forall_forall in H. auto. }
  induction l as [|c l IH]; intros cur H; simpl.
  - destruct cur as [|a cur]; constructor; auto. apply Rv; auto; discriminate.
  - destruct (is_ws c) eqn:C.
    + destruct cur as [|a cur]; auto. constructor; auto. apply Rv; auto; discriminate.
    + apply IH. constructor; auto.
Qed.
Lemma startswith_app : forall pre t rest, (forall c, In c pre -> is_ws c = false) ->
  match rest with c :: _ => is_ws c = true | [] => True end -> startswith pre (t ++ rest) = startswith pre t.
Proof.
  induction pre as [|a pre IH]; intros t rest Hp Hr; [destruct t; reflexivity|].
  destruct t as [|b t].
  - simpl. destruct rest as [|c rest]; auto. destruct (Ascii.eqb_spec a c) as [->|N]; auto.
    rewrite Hp in Hr; [discriminate|now left].
  - simpl. rewrite IH; auto. intros c K. apply Hp. now right.
Qed.

(** *** numbers *)
Definition all_digits (d : str) : Prop := d <> [] /\ Forall (fun c => is_digit c = true) d.
Definition sign (s : str) : Prop := s = [] \/ s = [ch_plus] \/ s = [ch_dash].
(** the numbers the loader recognises: sign, digits, fraction, exponent *)
Definition numeral (s : str) : Prop := exists sg ip fr ex, s = sg ++ ip ++ fr ++ ex /\
  sign sg /\ all_digits ip /\
  (fr = [] \/ exists f, fr = ch_dot :: f /\ all_digits f) /\
  (ex = [] \/ exists es e, ex = ch_e :: es ++ e /\ sign es /\ all_digits e).

Definition nodig (r : str) : Prop := match r with c :: _ => is_digit c = false | [] => True end.
Lemma digits_dec : forall l, exists d, l = d ++ digits l /\ Forall (fun c => is_digit c = true) d /\ nodig (digits l).
Proof.
  induction l as [|c l (d & E & D & N)]; [exists []; repeat split; constructor|]. cbn [digits].
  destruct (is_digit c) eqn:C.
  - exists (c :: d). split; [simpl; congruence|]. split; auto.
  - exists []. repeat split; auto.
Qed.
Lemma digits_app : forall d r, Forall (fun c => is_digit c = true) d -> nodig r -> digits (d ++ r) = r.
Proof.
  intros d r D N. induction D as [|c d C D IH]; simpl.
  - destruct r as [|c r]; auto. simpl in *. now rewrite N.
  - now rewrite C.
Qed.
Lemma digits1_spec : forall l r, digits1 l = Some r <-> exists d, l = d ++ r /\ all_digits d /\ nodig r.
Proof.
  intros l r. split.
  - unfold digits1. destruct l as [|c l]; [discriminate|]. destruct (is_digit c) eqn:C; [|discriminate]. intros [= <-].
    destruct (digits_dec l) as (d & E & D & N). exists (c :: d). split; [simpl; congruence|]. split; auto. split; [discriminate|auto].
  - intros (d & -> & [N D] & R). destruct d as [|c d]; [congruence|]. inversion D; subst. cbn [app digits1]. rewrite H1.
    f_equal. now apply digits_app.
Qed.
Lemma opt_sign_spec : forall l, exists sg, l = sg ++ opt_sign l /\ sign sg.
Proof.
  intros [|c l]; [exists []; split; auto; now left|]. cbn [opt_sign].
  destruct (Ascii.eqb_spec c ch_plus) as [->|]; [exists [ch_plus]; split; auto; right; now left|].
  destruct (Ascii.eqb_spec c ch_dash) as [->|]; [exists [ch_dash]; split; auto; right; now right|].
  exists []. split; auto. now left.
Qed.
Lemma opt_sign_app : forall sg d r, sign sg -> all_digits d -> opt_sign (sg ++ d ++ r) = d ++ r.
Proof.
  intros sg d r S [N D]. destruct S as [->|[->| ->]]; try reflexivity.
  destruct d as [|c d]; [congruence|]. inversion D; subst. cbn [app opt_sign].
  destruct (Ascii.eqb_spec c ch_plus) as [->|]; [discriminate|]. destruct (Ascii.eqb_spec c ch_dash) as [->|]; [discriminate|]. reflexivity.
Qed.
Lemma is_num_spec : forall s, is_num s = true <-> numeral s.
Proof.
  intros s. split.
  - unfold is_num. destruct (opt_sign_spec s) as (sg & Es & Sg).
    destruct (digits1 (opt_sign s)) as [r1|] eqn:D1; [|discriminate].
    apply digits1_spec in D1. destruct D1 as (ip & E1 & A1 & N1).
    unfold opt_frac. intros H.
    assert (F : exists fr r2, r1 = fr ++ r2 /\ (fr = [] \/ exists f, fr = ch_dot :: f /\ all_digits f) /\
       match opt_exp r2 with Some [] => true | _ => false end = true).
    { destruct r1 as [|c r1]; [exists [], []; auto|]. destruct (Ascii.eqb_spec c ch_dot) as [->|N].
      - destruct (digits1 r1) as [r2|] eqn:D2; [|discriminate]. apply digits1_spec in D2. destruct D2 as (f & E2 & A2 & N2).
        exists (ch_dot :: f), r2. split; [simpl; congruence|]. split; eauto.
      - exists [], (c :: r1). auto. }
    destruct F as (fr & r2 & E2 & Fr & H2). exists sg, ip, fr, r2.
    split; [rewrite Es, E1, E2 at 1; reflexivity|]. split; auto. split; auto. split; auto.
    unfold opt_exp in H2. destruct r2 as [|c r2]; auto. destruct (Ascii.eqb_spec c ch_e) as [->|N]; [|discriminate].
    destruct (opt_sign_spec r2) as (es & Ee & Se). destruct (digits1 (opt_sign r2)) as [[|? ?]|] eqn:D3; try discriminate.
    apply digits1_spec in D3. destruct D3 as (e & E3 & A3 & _). rewrite app_nil_r in E3. right. exists es, e.
    split; [|auto]. rewrite Ee at 1. now rewrite E3.
  - intros (sg & ip & fr & ex & -> & Sg & A & Fr & Ex). unfold is_num. rewrite opt_sign_app by auto.
    assert (Nex : nodig ex). { destruct Ex as [->|(es & e & -> & _)]; simpl; auto. }
    assert (Nfr : nodig (fr ++ ex)). { destruct Fr as [->|(f & -> & _)]; simpl; auto. }
    rewrite (proj2 (digits1_spec (ip ++ fr ++ ex) (fr ++ ex))) by eauto.
    assert (E : opt_frac (fr ++ ex) = Some ex).
    { destruct Fr as [->|(f & -> & Af)]; cbn [app].
      - destruct Ex as [->|(es & e & -> & _)]; reflexivity.
      - unfold opt_frac. rewrite Ascii.eqb_refl. apply digits1_spec. eauto. }
    rewrite E. destruct Ex as [->|(es & e & -> & Se & Ae)]; [reflexivity|]. unfold opt_exp. rewrite Ascii.eqb_refl.
    replace (opt_sign (es ++ e)) with e.
    + rewrite (proj2 (digits1_spec e [])); [reflexivity|]. exists e. rewrite app_nil_r. repeat split; auto; apply Ae.
    + symmetry. rewrite <- (app_nil_r e). now apply opt_sign_app.
Qed.

(** *** values *)
(** how a value may be written *)
Definition shows (x : scalar) (t : str) : Prop :=
  match x with
  | SNone => lower t = t_none
  | SBool true => lower t = t_true
  | SBool false => lower t = t_false
  | SNum s => s = lower t /\ numeral s
  | SStr s => s = lower t /\ ~ numeral s /\ s <> t_none /\ s <> t_true /\ s <> t_false
  end.
Lemma parse_value_spec : forall t x, parse_value t = x <-> shows x t.
Proof.
  intros t x. unfold parse_value.
  destruct (str_eqb_spec (lower t) t_none) as [E1|N1]; [|destruct (str_eqb_spec (lower t) t_true) as [E2|N2];
    [|destruct (str_eqb_spec (lower t) t_false) as [E3|N3]; [|destruct (is_num (lower t)) eqn:E4]]].
  - split; [intros <-; exact E1|]. destruct x as [|[]|s|s]; cbn [shows]; rewrite E1; try discriminate; auto.
    + intros [-> H]. apply is_num_spec in H. discriminate.
    + intros (-> & _ & H & _). congruence.
  - split; [intros <-; exact E2|]. destruct x as [|[]|s|s]; cbn [shows]; rewrite E2; try discriminate; auto.
    + intros [-> H]. apply is_num_spec in H. discriminate.
    + intros (-> & _ & _ & H & _). congruence.
  - split; [intros <-; exact E3|]. destruct x as [|[]|s|s]; cbn [shows]; rewrite E3; try discriminate; auto.
    + intros [-> H]. apply is_num_spec in H. discriminate.
    + intros (-> & _ & _ & _ & H). congruence.
  - apply is_num_spec in E4. split; [intros <-; cbn; auto|]. destruct x as [|[]|s|s]; cbn [shows]; try congruence; intros (-> & H); try congruence; try (exfalso; tauto).
  - assert (~ numeral (lower t)). { intros H. apply is_num_spec in H. congruence. }
    split; [intros <-; cbn; auto|]. destruct x as [|[]|s|s]; cbn [shows]; try congruence; intros (-> & H'); try congruence; try (exfalso; tauto).
Qed.

(** a value token: the text followed by any number of commas *)
Definition value_token (x : scalar) (t : str) : Prop := exists core n, t = core ++ repeat ch_comma n /\
  (forall a, core <> a ++ [ch_comma]) /\ startswith [ch_hash] t = false /\ shows x core.
Lemma dropc_repeat : forall c n l, dropc c (repeat c n ++ l) = dropc c l.
Proof. induction n; intros l; simpl; auto. now rewrite Ascii.eqb_refl. Qed.
Lemma rev_repeat : forall (c : ascii) n, rev (repeat c n) = repeat c n.
Proof.
  assert (A : forall (c : ascii) n, repeat c n ++ [c] = c :: repeat c n) by (induction n; simpl; congruence).
  induction n; simpl; auto. now rewrite IHn, A.
Qed.
Lemma rstripc_token : forall core n, (forall a, core <> a ++ [ch_comma]) -> rstripc ch_comma (core ++ repeat ch_comma n) = core.
Proof.
  intros core n H. unfold rstripc. rewrite rev_app_distr, rev_repeat, dropc_repeat.
  destruct (rev core) as [|c r] eqn:E.
  - simpl. apply (f_equal (@rev ascii)) in E. rewrite rev_involutive in E. now subst.
  - cbn [dropc]. destruct (Ascii.eqb_spec c ch_comma) as [->|N].
    + exfalso. apply (H (rev r)). apply (f_equal (@rev ascii)) in E. rewrite rev_involutive in E. exact E.
    + rewrite <- E. apply rev_involutive.
Qed.
(** a comment: nothing, or a token starting with # and whatever follows *)
Definition comment (ts : list str) : Prop := match ts with [] => True | t :: _ => startswith [ch_hash] t = true end.
Lemma parse_seq_spec : forall xs ts cm, Forall2 value_token xs ts -> comment cm -> parse_seq (ts ++ cm) = xs.
Proof.
  intros xs ts cm H C. induction H as [|x t xs ts (core & n & -> & Hc & Hs & Sh) H IH]; cbn [app parse_seq].
  - destruct cm as [|t cm]; auto. unfold comment in C. cbn [parse_seq]. now rewrite C.
  - rewrite Hs, rstripc_token by auto. f_equal; auto. now apply parse_value_spec.
Qed.

(** *** names *)
Fixpoint dec_val (l : str) : N :=
  match l with [] => 0 | c :: t => N.of_nat (nat_of_ascii c - 48) * 10 ^ N.of_nat (length t) + dec_val t end%N.
Lemma int_of_spec : forall l, int_of l = dec_val l.
Proof.
  assert (A : forall l n, fold_left (fun n c => (10 * n + N.of_nat (nat_of_ascii c - 48))%N) l n = (n * 10 ^ N.of_nat (length l) + dec_val l)%N).
  { induction l as [|c l IH]; intros n; cbn [fold_left length dec_val].
    - simpl. lia.
    - rewrite IH. rewrite Nat2N.inj_succ, N.pow_succ_r'. lia. }
  intros l. unfold int_of. rewrite A. lia.
Qed.
(** how a key may be written: digits for an integer, else any text without
    colon and quote that is not all digits *)
Definition key_shown (k : key) (t : str) : Prop :=
  (forall c, In c t -> c <> ch_colon /\ c <> ch_quote /\ is_ws c = false) /\
  match k with
  | KInt z => all_digits t /\ z = dec_val t
  | KStr s => s = t /\ ~ all_digits t
  end.
Fixpoint join (ts : list str) : str := match ts with [] => [] | [t] => t | t :: ts => t ++ ch_colon :: join ts end.
(** a key path, quotes anywhere being ignored *)
Definition path_shown (ks : list key) (first : str) : Prop := exists ts, Forall2 key_shown ks ts /\ ts <> [] /\
  filter (fun c => negb (Ascii.eqb c ch_quote)) first = join ts.
Lemma split_on_part : forall t cur l, (forall c, In c t -> c <> ch_colon) -> split_on ch_colon cur (t ++ l) = split_on ch_colon (rev t ++ cur) l.
Proof.
  induction t as [|c t IH]; intros cur l H; cbn [app split_on]; auto.
  destruct (Ascii.eqb_spec c ch_colon) as [E|N]; [exfalso; apply (H c); [now left|auto]|].
  rewrite IH by (intros; apply H; now right). cbn [rev]. now rewrite <- app_assoc.
Qed.
Lemma split_on_join : forall ts, ts <> [] -> (forall t c, In t ts -> In c t -> c <> ch_colon) -> split_on ch_colon [] (join ts) = ts.
Proof.
  induction ts as [|t ts IH]; intros N H; [congruence|]. destruct ts as [|t2 ts].
  - cbn [join]. rewrite <- (app_nil_r t) at 1. rewrite split_on_part by (intros; eapply H; [now left|auto]).
    cbn [split_on]. rewrite app_nil_r, rev_involutive. reflexivity.
  - cbn [join]. rewrite split_on_part by (intros; eapply H; [now left|auto]). cbn [split_on]. rewrite Ascii.eqb_refl.
    rewrite app_nil_r, rev_involutive. f_equal. apply IH; [discriminate|]. intros t' c K. apply H. now right.
Qed.
Lemma lstrip_nows : forall t, (forall c, In c t -> is_ws c = false) -> lstrip t = t.
Proof. intros [|c t] H; auto. cbn [lstrip]. rewrite H by (now left). reflexivity. Qed.
Lemma strip_nows : forall t, (forall c, In c t -> is_ws c = false) -> strip t = t.
Proof.
  intros t H. unfold strip. rewrite (lstrip_nows t H). rewrite lstrip_nows; [apply rev_involutive|].
  intros c K. apply H. now rewrite in_rev.
Qed.
Lemma parse_name_spec : forall ks first, path_shown ks first -> parse_name first = ks.
Proof.
  intros ks first (ts & F & N & E). unfold parse_name. rewrite E.
  assert (H : forall t c, In t ts -> In c t -> c <> ch_colon /\ c <> ch_quote /\ is_ws c = false).
  { intros t c K K'. clear N E. induction F as [|k t' ks ts Hk F IH]; [destruct K|]. destruct K as [->|K]; auto. apply Hk; auto. }
  rewrite split_on_join; [|auto|intros; eapply H; eauto].
  clear N E. induction F as [|k t ks ts Hk F IH]; cbn [map]; auto.
  f_equal; [|apply IH; intros; apply (H t0 c); auto; now right].
  rewrite strip_nows by (intros; eapply (H t c); [now left|auto]).
  destruct Hk as [_ Hk]. assert (D : isdigit t = true <-> all_digits t).
  { unfold isdigit, all_digits. destruct t as [|c t].
    - split; [discriminate|]. intros [C _]. congruence.
    - rewrite forallb_forall, Forall_forall. split; [intros; split; [discriminate|auto]|tauto]. }
  destruct k as [s|z].
  - destruct Hk as [-> Hn]. destruct (isdigit t); auto. exfalso. tauto.
  - destruct Hk as [Ha ->]. apply D in Ha. now rewrite Ha, int_of_spec.
Qed.

(** *** documents *)
Inductive item : Set :=
| IAttr (name : str) (v : list scalar)
| IDict (name : str) (es : list (list scalar * list key)).

(** the tokens after the name: an optional equals sign, the values, a comment *)
Definition tail_shown (v : list scalar) (tail : list str) : Prop := exists eq vts cm,
  tail = (if eq : bool then [[ch_eq]] else []) ++ vts ++ cm /\ tail <> [] /\
  (eq = false -> match vts ++ cm with t :: _ => t <> [ch_eq] | [] => True end) /\
  Forall2 value_token v vts /\ comment cm.
(** a line with the given name or key path and values; ordinary first token *)
Definition ordinary (first : str) : Prop := startswith [ch_hash] first = false /\ startswith [ch_dash; ch_dash] first = false.
Definition entry_line (ks : list key) (v : list scalar) (line : str) : Prop := exists first tail,
  split_ws [] line = first :: tail /\ ordinary first /\ path_shown ks first /\ tail_shown v tail.
Definition name_line (n : str) (line : str) : Prop := exists first,
  split_ws [] line = [first] /\ ordinary first /\ path_shown [KStr n] first /\ n <> [].
Definition dash_line (line : str) : Prop := startswith [ch_dash; ch_dash] (strip line) = true.
(** blank and comment lines *)
Definition noise (line : str) : bool := match strip line with [] => true | l => startswith [ch_hash] l end.

Definition renders (i : item) (lines : list str) : Prop :=
  match i with
  | IAttr n v => exists l, lines = [l] /\ entry_line [KStr n] v l
  | IDict n es => exists l1 l2 ls l3, lines = l1 :: l2 :: ls ++ [l3] /\ name_line n l1 /\ dash_line l2 /\ dash_line l3 /\
      Forall2 (fun e l => entry_line (snd e) (fst e) l) es ls
  end.
Inductive renders_doc : list item -> list str -> Prop :=
| RD_nil : renders_doc [] []
| RD_cons : forall i doc l ls, renders i l -> renders_doc doc ls -> renders_doc (i :: doc) (l ++ ls).

Lemma read_line_noise : forall st l, noise l = true -> read_line st l = Ok st.
Proof. intros st l H. unfold read_line. unfold noise in H. destruct (strip l); auto. now rewrite H. Qed.
Lemma read_lines_noise : forall lines st, read_lines st lines = read_lines st (filter (fun l => negb (noise l)) lines).
Proof.
  induction lines as [|l lines IH]; intros st; cbn [read_lines filter]; auto.
  destruct (noise l) eqn:N; cbn [negb].
  - rewrite read_line_noise by auto. cbn [bind]. auto.
  - cbn [read_lines]. destruct (read_line st l); cbn [bind]; auto.
Qed.
Lemma read_lines_app : forall l l' st, read_lines st (l ++ l') = bind (read_lines st l) (fun st => read_lines st l').
Proof. induction l as [|a l IH]; intros l' st; cbn [read_lines app]; auto. destruct (read_line st a); cbn [bind]; auto. Qed.

(** the part of read_line after the comment and hyphen tests *)
Lemma read_line_ordinary : forall st line first tail, split_ws [] line = first :: tail -> ordinary first ->
  read_line st line =
    let nameParts := parse_name first in
        let body :=
          match tail with
          | [] => Raise IndexError
          | t0 :: ts =>
            let tokens := if str_eqb t0 [ch_eq] then ts else tail in
            let seq := leaf_of (parse_seq tokens) in
            if dictDef st then bind (s_dadd (sp st) (Leaf seq) nameParts) (fun s => Ok (mkRd (dictDef st) (dictName st) s))
            else match nameParts with
                 | [] => Raise IndexError
                 | n :: _ => bind (s_add (sp st) n (Leaf seq)) (fun s => Ok (mkRd (dictDef st) (dictName st) s))
                 end
          end in
        if dictDef st then body
        else if 1 <? length nameParts then Raise ValueError
        else match tail, nameParts with
             | [], n :: _ => Ok (mkRd (dictDef st) (Some n) (sp st))
             | _, _ => body
             end.
Proof.
  intros st line first tail E [O1 O2]. unfold read_line.
  destruct (strip_word line first tail E) as (rest & Es & Hr).
  assert (W : word first). { assert (H := split_ws_words line [] (Forall_nil _)). rewrite E in H. now inversion H. }
  destruct first as [|c f]; [destruct W as [W _]; congruence|].
  assert (S1 : startswith [ch_hash] (strip line) = false).
  { rewrite Es, startswith_app; auto. intros x [<-|[]]. reflexivity. }
  assert (S2 : startswith [ch_dash; ch_dash] (strip line) = false).
  { rewrite Es, startswith_app; auto. intros x [<-|[<-|[]]]; reflexivity. }
  rewrite S1, S2. rewrite split_strip, E. rewrite Es. reflexivity.
Qed.
Lemma tail_values : forall v tail, tail_shown v tail -> exists t0 ts, tail = t0 :: ts /\
  parse_seq (if str_eqb t0 [ch_eq] then ts else tail) = v.
Proof.
  intros v tail (eq & vts & cm & E & N & He & Hv & Hc). destruct tail as [|t0 ts]; [congruence|].
  exists t0, ts. split; auto. destruct eq.
  - injection E as -> ->. destruct (str_eqb_spec [ch_eq] [ch_eq]); [|congruence]. now apply parse_seq_spec.
  - cbn [app] in E. specialize (He eq_refl). rewrite <- E in He. destruct (str_eqb_spec t0 [ch_eq]); [congruence|].
    rewrite E. now apply parse_seq_spec.
Qed.
Lemma read_attr : forall st n v l, dictDef st = false -> entry_line [KStr n] v l ->
  read_line st l = Ok (mkRd false (dictName st) (mkSpecs (aset str_eqb (attrs (sp st)) n (Leaf (leaf_of v))) (ds (sp st)))).
Proof.
  intros st n v l D (first & tail & E & O & P & T). rewrite (read_line_ordinary st l first tail E O).
  rewrite (parse_name_spec _ _ P), D. cbv zeta. cbn [length]. destruct (tail_values _ _ T) as (t0 & ts & -> & Hv).
  cbn [Nat.ltb Nat.leb]. rewrite Hv. reflexivity.
Qed.
Lemma read_entry : forall st ks v l, dictDef st = true -> entry_line ks v l ->
  read_line st l = bind (s_dadd (sp st) (Leaf (leaf_of v)) ks) (fun s => Ok (mkRd true (dictName st) s)).
Proof.
  intros st ks v l D (first & tail & E & O & P & T). rewrite (read_line_ordinary st l first tail E O).
  rewrite (parse_name_spec _ _ P), D. cbv zeta. destruct (tail_values _ _ T) as (t0 & ts & -> & Hv). rewrite Hv. reflexivity.
Qed.
Lemma read_name : forall st n l, dictDef st = false -> name_line n l ->
  read_line st l = Ok (mkRd false (Some (KStr n)) (sp st)).
Proof.
  intros st n l D (first & E & O & P & _). rewrite (read_line_ordinary st l first [] E O).
  rewrite (parse_name_spec _ _ P), D. reflexivity.
Qed.
Lemma read_dash : forall st l, dash_line l -> read_line st l =
      if dictDef st then bind (s_done (sp st)) (fun s => Ok (mkRd false None s))
      else match dictName st with
           | Some n => if truthy_key (Some n) then Ok (mkRd true (Some n) (s_start (sp st) n)) else Raise ValueError
           | None => Raise ValueError
           end.
Proof.
  intros st l H. unfold read_line. unfold dash_line in H. destruct (strip l) as [|c t]; [discriminate|]. rewrite H.
  replace (startswith [ch_hash] (c :: t)) with false; auto. cbn [startswith] in *. symmetry.
  destruct (Ascii.eqb_spec ch_hash c) as [<-|N]; auto.
Qed.

(** the entries of a dict as DictStacker gets them *)
Definition entries (es : list (list scalar * list key)) : list (val * list key) :=
  map (fun e => (Leaf (leaf_of (fst e)), snd e)) es.
Lemma read_entries : forall es ls nm A n d, Forall2 (fun e l => entry_line (snd e) (fst e) l) es ls ->
  read_lines (mkRd true nm (mkSpecs A (Some (n, d)))) ls =
  bind (ds_adds d (entries es)) (fun d => Ok (mkRd true nm (mkSpecs A (Some (n, d))))).
Proof.
  intros es ls nm A n d H. revert d. induction H as [|e l es ls He H IH]; intros d; cbn [read_lines entries map ds_adds bind]; auto.
  rewrite (read_entry _ (snd e) (fst e)) by auto. cbn [sp s_dadd ds attrs bind dictName]. fold (entries es).
  destruct (ds_add d (Leaf (leaf_of (fst e))) (snd e)) as [d'|]; cbn [bind]; auto.
Qed.

(** an item's value: [None] if its dict cannot be built *)
Definition item_name (i : item) : str := match i with IAttr n _ | IDict n _ => n end.
Definition item_val (i : item) : option val :=
  match i with
  | IAttr _ v => Some (Leaf (leaf_of v))
  | IDict _ es => match ds_adds [] (entries es) with Ok d => Some (Dct d) | Raise _ => None end
  end.
Lemma read_item : forall i lines A nm v, renders i lines -> item_val i = Some v ->
  exists nm', read_lines (mkRd false nm (mkSpecs A None)) lines = Ok (mkRd false nm' (mkSpecs (aset str_eqb A (item_name i) v) None)) /\
  (nm = None -> nm' = None).
Proof.
  intros [n v0|n es] lines A nm v R V; cbn [item_val item_name] in *.
  - injection V as <-. destruct R as (l & -> & H). exists nm. cbn [read_lines]. rewrite (read_attr _ n v0) by auto. cbn. auto.
  - destruct (ds_adds [] (entries es)) as [d|] eqn:E; [|discriminate]. injection V as <-.
    destruct R as (l1 & l2 & ls & l3 & -> & H1 & H2 & H3 & H4). exists None. split; auto.
    cbn [read_lines]. rewrite (read_name _ n) by auto. cbn [bind]. rewrite read_dash by auto. cbn [dictDef dictName].
    destruct H1 as (_ & _ & _ & _ & Nn). destruct n as [|c n]; [congruence|]. cbn [truthy_key bind sp s_start attrs].
    rewrite read_lines_app. unfold s_start. cbn [attrs]. rewrite (read_entries es) by auto. rewrite E. cbn [bind read_lines]. rewrite read_dash by auto.
    cbn [dictDef bind s_done sp ds s_add attrs]. reflexivity.
Qed.

(** the attribute dict after all items *)
Definition set_item (A : list (str * val)) (i : item) : list (str * val) :=
  match item_val i with Some v => aset str_eqb A (item_name i) v | None => A end.
Lemma read_doc : forall doc lines A, renders_doc doc lines -> (forall i, In i doc -> item_val i <> None) ->
  read_lines (mkRd false None (mkSpecs A None)) lines = Ok (mkRd false None (mkSpecs (fold_left set_item doc A) None)).
Proof.
  intros doc lines A R. revert A. induction R as [|i doc l ls Ri R IH]; intros A H; cbn [fold_left].
  - reflexivity.
  - destruct (item_val i) as [v|] eqn:V; [|exfalso; eapply (H i); [now left|auto]].
    destruct (read_item i l A None v Ri V) as (nm & E & Hn). rewrite (Hn eq_refl) in E.
    rewrite read_lines_app, E. cbn [bind]. rewrite IH by (intros; apply H; now right).
    replace (set_item A i) with (aset str_eqb A (item_name i) v); [reflexivity|]. unfold set_item. now rewrite V.
Qed.
Lemma attrs_last : forall doc A n, (forall i, In i doc -> item_val i <> None) ->
  (forall doc1 i doc2, doc = doc1 ++ i :: doc2 -> item_name i = n -> (forall j, In j doc2 -> item_name j <> n) ->
     aget str_eqb (fold_left set_item doc A) n = item_val i) /\
  ((forall i, In i doc -> item_name i <> n) -> aget str_eqb (fold_left set_item doc A) n = aget str_eqb A n).
Proof.
  intros doc A n H.
  assert (Skip : forall doc A, (forall i, In i doc -> item_val i <> None) -> (forall i, In i doc -> item_name i <> n) ->
    aget str_eqb (fold_left set_item doc A) n = aget str_eqb A n).
  { clear. induction doc as [|i doc IH]; intros A H K; cbn [fold_left]; auto.
    rewrite IH by (intros; (apply H || apply K); now right). unfold set_item. destruct (item_val i) as [v|] eqn:V; auto.
    rewrite (aget_aset _ _ str_eqb_spec). destruct (str_eqb_spec n (item_name i)) as [E|N]; auto.
    exfalso. apply (K i); [now left|auto]. }
  split; [|intros K; apply Skip; auto].
  intros doc1 i doc2 -> Hn K. rewrite fold_left_app. cbn [fold_left]. rewrite Skip; auto.
  - unfold set_item. destruct (item_val i) as [v|] eqn:V.
    + rewrite (aget_aset _ _ str_eqb_spec). destruct (str_eqb_spec n (item_name i)); [reflexivity|congruence].
    + exfalso. apply (H i); auto. rewrite in_app_iff. simpl; auto.
  - intros j J. apply H. rewrite in_app_iff. right. now right.
Qed.

(** layout: words separated by whitespace are split again *)
Fixpoint lay (items : list (str * str)) : str := match items with [] => [] | (t, w) :: r => t ++ w ++ lay r end.
Lemma split_lay : forall items w0, ws_str w0 -> (forall t w, In (t, w) items -> word t /\ ws_str w) ->
  (forall a t w b, items = a ++ (t, w) :: b -> b <> [] -> w <> []) ->
  split_ws [] (w0 ++ lay items) = map fst items.
Proof.
  intros items w0 W0. rewrite split_ws_pre by auto. induction items as [|[t w] items IH]; intros H S; cbn [lay map fst]; auto.
  destruct (H t w (or_introl eq_refl)) as [[Nt Wt] Ww]. rewrite split_ws_word by auto. rewrite app_nil_r.
  assert (IH' : split_ws [] (lay items) = map fst items).
  { apply IH; [intros; apply H; now right|]. intros a t' w' b E. apply (S ((t, w) :: a) t' w' b). simpl; congruence. }
  assert (Nr : rev t <> []). { intros E. apply Nt. apply (f_equal (@rev ascii)) in E. now rewrite rev_involutive in E. }
  destruct w as [|c w].
  - destruct items as [|x items]; [|exfalso; eapply (S [] t [] (x :: items)); [reflexivity|discriminate|reflexivity]].
    cbn. destruct (rev t) eqn:E; [congruence|]. now rewrite <- E, rev_involutive.
  - cbn [app]. inversion Ww; subst. cbn [split_ws]. rewrite H2. destruct (rev t) as [|a r] eqn:E; [congruence|].
    rewrite <- E, rev_involutive. f_equal. now rewrite split_ws_pre.
Qed.

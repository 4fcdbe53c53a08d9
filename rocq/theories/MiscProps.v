(** * Properties of the example extraction and of the options: C52, C58 *)
From Coq Require Import ZArith String Ascii List Bool Arith Lia.
From Verif Require Import Flt Py MiscModel.
Import ListNotations.
Local Open Scope string_scope.
#[local] Arguments fltb : simpl never.

(** ** C52 *)
Lemma ends_with_spec : forall s e, ends_with s e = true <-> exists r, s = r ++ e.
Proof.
  induction s as [|c s IH]; intros e; cbn [ends_with]; rewrite orb_true_iff; split.
  - intros [H|H]; [|discriminate]. apply String.eqb_eq in H. exists "". simpl. congruence.
  - intros [r H]. left. destruct r; [|discriminate]. simpl in H. subst e. reflexivity.
  - intros [H|H]; [apply String.eqb_eq in H; exists ""; simpl; congruence|]. apply IH in H as [r ->]. now exists (String c r).
  - intros [[|c' r] H]; [left; simpl in H; subst e; now rewrite String.eqb_refl|]. simpl in H. injection H as -> ->. right. apply IH. eauto.
Qed.
(** the file names extracted: a lower case letter, at least one more
    character, a dot and one of the extensions *)
Theorem C52_names : forall exts n, re_file exts n = true <->
  exists c r e, (97 <= nat_of_ascii c <= 122)%nat /\ r <> "" /\ In e exts /\ n = String c (r ++ "." ++ e).
Proof.
  intros exts n. unfold re_file. split.
  - destruct n as [|c [|x rest]]; try discriminate. rewrite andb_true_iff, existsb_exists. intros [L (e & E & H)]. apply ends_with_spec in H as [r ->].
    unfold is_lower in L. apply andb_true_iff in L as [L1 L2]. apply Nat.leb_le in L1, L2. exists c, (String x r), e. repeat split; auto. discriminate.
  - intros (c & r & e & L & N & E & ->). destruct r as [|x r]; [congruence|]. cbn [append]. rewrite andb_true_iff, existsb_exists. split.
    + unfold is_lower. apply andb_true_iff. split; apply Nat.leb_le; lia.
    + exists e. split; auto. apply ends_with_spec. exists r. reflexivity.
Qed.
Print Assumptions C52_names.
Example C52_names_ex : re_file exts_script "voc.py" = true /\ re_file exts_script "goldstein-price.c" = true /\ re_file exts_script "voc.log" = false /\ re_file exts_script "p.py" = false.
Proof. repeat split; vm_compute; reflexivity. Qed.

Fixpoint first_of (src : list (string * node)) (n : string) (ok : string * node -> bool) : option node :=
  match src with [] => None | x :: src => if String.eqb (fst x) n && ok x then Some (snd x) else first_of src n ok end.
Lemma loop_spec : forall exts src m n, extract_loop exts src m n = match m n with Some x => Some x | None => first_of src n (copies exts) end.
Proof.
  intros exts. induction src as [|[k x] src IH]; intros m n; cbn [extract_loop first_of].
  - now destruct (m n).
  - rewrite IH. unfold copies at 2. cbn [fst snd]. destruct (re_file exts k) eqn:R; cbn [andb].
    + destruct (m k) as [y|] eqn:K.
      * destruct (m n) eqn:N; auto. destruct (String.eqb_spec k n) as [->|D]; [congruence|reflexivity].
      * destruct x as [c|].
        -- unfold put. destruct (String.eqb_spec n k) as [->|D].
           ++ rewrite K, String.eqb_refl. reflexivity.
           ++ destruct (m n); auto. destruct (String.eqb_spec k n) as [->|D']; [congruence|reflexivity].
        -- rewrite andb_false_r. reflexivity.
    + rewrite andb_false_r. reflexivity.
Qed.
(** whatever is in the directory stays as it was; a name that is not there is
    created exactly if it is a packaged regular file with a matching name, with
    the packaged contents; nothing else is created *)
Theorem C52_extract : forall exts src m, NoDup (map fst src) ->
  exists m', extract exts src (TDir m) = (TDir m', None) /\
    (forall n x, m n = Some x -> m' n = Some x) /\
    (forall n c, m n = None -> In (n, NFile c) src -> re_file exts n = true -> m' n = Some (NFile c)) /\
    (forall n x, m n = None -> m' n = Some x -> exists c, x = NFile c /\ In (n, NFile c) src /\ re_file exts n = true).
Proof.
  intros exts src m ND. exists (extract_loop exts src m). split; auto. split; [|split].
  - intros n x H. now rewrite loop_spec, H.
  - intros n c H I R. rewrite loop_spec, H. clear H. induction src as [|[k x] src IH]; [destruct I|]. cbn [first_of fst snd map] in *. inversion ND; subst. destruct I as [I|I].
    + injection I as -> ->. rewrite String.eqb_refl. unfold copies. cbn [fst snd]. rewrite R. reflexivity.
    + destruct (String.eqb_spec k n) as [->|D]; [exfalso; apply H1; now apply (in_map fst) in I|]. auto.
  - intros n x H. rewrite loop_spec, H. clear. induction src as [|[k y] src IH]; cbn [first_of]; [discriminate|]. destruct (_ && _) eqn:E.
    + cbn [fst snd] in *. intros Y. injection Y as <-. apply andb_true_iff in E as [E1 E2]. apply String.eqb_eq in E1 as ->. unfold copies in E2. cbn [fst snd] in E2. apply andb_true_iff in E2 as [E2 E3].
      destruct y as [c|]; [|discriminate]. exists c. split; auto. split; [simpl; auto|auto].
    + intros Y. destruct (IH Y) as (c & A & B & C). exists c. split; auto. split; [simpl; auto|auto].
Qed.
Print Assumptions C52_extract.
(** an absent directory is created and treated as an empty one *)
Theorem C52_absent : forall exts src, extract exts src TAbsent = extract exts src (TDir (fun _ => None)).
Proof. reflexivity. Qed.
Print Assumptions C52_absent.
(** a second run changes nothing *)
Theorem C52_again : forall exts src t t', fst (extract exts src t) = t' ->
  match t', fst (extract exts src t') with
  | TDir m, TDir m' => forall n, m' n = m n
  | TFile c, TFile c' => c' = c
  | _, _ => False
  end.
Proof.
  intros exts src t t' <-. destruct t as [|c|m]; cbn [extract fst]; auto; intros n; rewrite !loop_spec; [|destruct (m n); auto]; destruct (first_of _ _ _); reflexivity.
Qed.
Print Assumptions C52_again.
Example C52_ex : let src := [("README.txt", NFile "r"); ("data.py", NFile "d"); ("voc.py", NFile "v"); ("voc.log", NFile "l"); ("old.py", NDir)] in
  let m := fun n => if String.eqb n "voc.py" then Some (NFile "edited") else None in
  NoDup (map fst src) /\
  match fst (extract exts_script src (TDir m)) with
  | TDir m' => map m' ["README.txt"; "data.py"; "voc.py"; "voc.log"; "old.py"] = [None; Some (NFile "d"); Some (NFile "edited"); None; None]
  | _ => False end.
Proof. split; [|vm_compute; reflexivity]. simpl. repeat (constructor; [simpl; intuition discriminate|]). constructor. Qed.
(** "Delete a modified example file and run this again to restore the default
    file" does not hold for README.txt: a name that begins with a capital is
    never extracted *)
Theorem C52_readme_refuted : forall src m, m "README.txt" = None ->
  exists m', extract exts_script src (TDir m) = (TDir m', None) /\ m' "README.txt" = None.
Proof.
  intros src m H. exists (extract_loop exts_script src m). split; auto. rewrite loop_spec, H. induction src as [|[k x] src IH]; auto. cbn [first_of fst]. destruct (String.eqb_spec k "README.txt") as [->|D]; auto.
Qed.
Print Assumptions C52_readme_refuted.
(** the function in ade/__init__.py, documented alike, never extracts .specs
    files, which the script does *)
Theorem C52_specs_refuted : exists src n c, In (n, NFile c) src /\
  match fst (extract exts_script src TAbsent), fst (extract exts_package src TAbsent) with
  | TDir m1, TDir m2 => m1 n = Some (NFile c) /\ m2 n = None
  | _, _ => False
  end.
Proof. exists [("my.specs", NFile "s")], "my.specs", "s". split; [simpl; auto|]. vm_compute. auto. Qed.
Print Assumptions C52_specs_refuted.

(** ** C58 *)
(** each option: the keyword if one is given, else the attribute; and the
    documented default if that is None or missing *)
Definition documented : list (string * pyv) :=
  [ ("CR", VNum (flit 3602879701896397%Z (-52)%Z)); ("F", VOther 2); ("maxiter", VNum (fofZ 500%Z));
    ("randomBase", VOther 0); ("uniform", VOther 0); ("adaptive", VOther 1); ("bitterEnd", VOther 0);
    ("dwellByGrave", VNum (fofZ 5%Z)); ("goalSSE", VNone); ("xSSE", VOther 0) ].
Theorem C58_options : forall kw attr a, de_init kw attr = Ok a ->
  (forall name dflt, In (name, dflt) documented ->
    (forall v, kw name = Some v -> v <> VNone -> a name = Some v) /\
    (kw name = Some VNone -> a name = Some dflt) /\
    (forall v, kw name = None -> attr name = Some v -> v <> VNone -> a name = Some v) /\
    (kw name = None -> (attr name = None \/ attr name = Some VNone) -> a name = Some dflt)) /\
  (forall name, ~ In name (map fst documented) -> a name = attr name).
Proof.
  intros kw attr a H. change documented with de_defaults. assert (A : a = de_setattrs kw attr).
  { unfold de_init in H. destruct (de_setattrs kw attr "CR") as [[|x|]|]; try discriminate. destruct (_ || _); congruence. }
  assert (F : forall l at0 name, NoDup (map fst l) ->
    (forall dflt, In (name, dflt) l -> fold_left (fun at_ nd => fun n => if String.eqb n (fst nd) then Some (de_option kw at_ (fst nd) (snd nd)) else at_ n) l at0 name = Some (de_option kw at0 name dflt)) /\
    (~ In name (map fst l) -> fold_left (fun at_ nd => fun n => if String.eqb n (fst nd) then Some (de_option kw at_ (fst nd) (snd nd)) else at_ n) l at0 name = at0 name)).
  { induction l as [|[k d] l IH]; intros at0 name ND; [split; [intros ? []|auto]|]. cbn [map fst] in ND. inversion ND; subst. cbn [fold_left fst snd]. split.
    - intros dflt [I|I].
      + injection I as -> ->. destruct (IH (fun n => if String.eqb n name then Some (de_option kw at0 name dflt) else at0 n) name H3) as [_ X]. rewrite X by auto. now rewrite String.eqb_refl.
      + destruct (IH (fun n => if String.eqb n k then Some (de_option kw at0 k d) else at0 n) name H3) as [X _]. rewrite (X _ I). f_equal. unfold de_option. destruct (String.eqb_spec name k) as [->|D]; auto.
        exfalso. apply H2. now apply (in_map fst) in I.
    - intros N. destruct (IH (fun n => if String.eqb n k then Some (de_option kw at0 k d) else at0 n) name H3) as [_ X]. rewrite X by (intros I; apply N; simpl; auto). destruct (String.eqb_spec name k) as [->|D]; auto. exfalso. apply N. simpl. auto. }
  assert (ND : NoDup (map fst de_defaults)) by (simpl; repeat (constructor; [simpl; intuition discriminate|]); constructor).
  subst a. unfold de_setattrs. split.
  - intros name dflt I. destruct (F de_defaults attr name ND) as [X _]. specialize (X dflt I). rewrite X. clear X. unfold de_option. repeat split.
    + intros v -> NV. destruct v; congruence.
    + intros ->. reflexivity.
    + intros v -> -> NV. destruct v; congruence.
    + intros -> [-> | ->]; reflexivity.
  - intros name N. destruct (F de_defaults attr name ND) as [_ X]. auto.
Qed.
Print Assumptions C58_options.
(** CR must not be outside of [0, 1]: the constructor raises exactly then (or
    for something that is no number) *)
Theorem C58_CR : forall kw attr cr, kw "CR" = Some (VNum cr) ->
  (de_init kw attr = Raise ValueError <-> fltb cr fzero = true \/ fltb fone cr = true) /\
  ((exists a, de_init kw attr = Ok a) <-> fltb cr fzero = false /\ fltb fone cr = false).
Proof.
  intros kw attr cr K. assert (E : de_setattrs kw attr "CR" = Some (VNum cr)). { unfold de_setattrs. cbn. unfold de_option. rewrite K. reflexivity. }
  unfold de_init. rewrite E. destruct (fltb cr fzero), (fltb fone cr); cbn [orb]; split; split; intros H; auto; try discriminate; try (destruct H; discriminate); eauto; destruct H as [a H]; discriminate.
Qed.
Print Assumptions C58_CR.
Example C58_ex : exists a, de_init (fun n => if String.eqb n "CR" then Some (VNum (flit 1%Z (-1)%Z)) else if String.eqb n "maxiter" then Some VNone else None)
    (fun n => if String.eqb n "uniform" then Some (VOther 1) else if String.eqb n "maxiter" then Some (VOther 7) else None) = Ok a /\
  a "uniform" = Some (VOther 1) /\ a "maxiter" = Some (VNum (fofZ 500%Z)) /\ a "goalSSE" = Some VNone.
Proof. eexists. split; [unfold de_init; cbn; reflexivity|]. repeat split. Qed.
(** a NaN crossover constant is accepted *)
Theorem C58_nan_refuted : forall kw attr, kw "CR" = Some (VNum fnan) -> exists a, de_init kw attr = Ok a /\ a "CR" = Some (VNum fnan).
Proof.
  intros kw attr K. destruct (C58_CR kw attr fnan K) as [_ X]. destruct X as [_ X]. destruct X as [a A]; [split; reflexivity|]. exists a. split; auto.
  destruct (C58_options kw attr a A) as [O _]. destruct (O "CR" (VNum (flit 3602879701896397%Z (-52)%Z))) as (P & _); [left; reflexivity|]. apply P; [exact K|discriminate].
Qed.
Print Assumptions C58_nan_refuted.
(** a keyword that is None is not ignored: the default replaces even an
    attribute set in a subclass *)
Theorem C58_none_refuted : exists kw attr a v, kw "maxiter" = Some VNone /\ attr "maxiter" = Some v /\ v <> VNone /\ de_init kw attr = Ok a /\ a "maxiter" <> Some v.
Proof.
  exists (fun n => if String.eqb n "maxiter" then Some VNone else None), (fun n => if String.eqb n "maxiter" then Some (VOther 7) else None). eexists. exists (VOther 7).
  split; [reflexivity|]. split; [reflexivity|]. split; [discriminate|]. split; [unfold de_init; cbn; reflexivity|]. cbn. discriminate.
Qed.
Print Assumptions C58_none_refuted.

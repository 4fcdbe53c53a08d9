(** * Properties of the script pv (C97). *)
From Coq Require Import String List Bool Arith ZArith Lia.
From Verif Require Import Flt Py ParamModel RankModel AnalModel AnalProofs AnalProps HistModel VsModel PvModel.
Import ListNotations.
Local Open Scope nat_scope.

Lemma combos n : 2 <= n -> (n * (n - 1) / 2 =? 0) = false.
Proof. intros H. apply Nat.eqb_neq. assert (n * (n - 1) >= 2 * 1) by (apply Nat.mul_le_mono; lia). assert (2 / 2 <= n * (n - 1) / 2) by (apply Nat.div_le_mono; lia). cbn in *. lia. Qed.
Lemma no_combos n : n < 2 -> (n * (n - 1) / 2 =? 0) = true.
Proof. destruct n as [|[|]]; [reflexivity|reflexivity|lia]. Qed.

(** Without a file nothing is loaded or drawn *)
Theorem C97_no_file a : a_pos a = [] -> forall load, pv_main load a = ([], NoFile).
Proof. intros E load. unfold pv_main. now rewrite E. Qed.

(** the pairs with the given first parameter, strongest first *)
Definition pairs_of (l : loaded) (p : string) : list row :=
  filter (fun r => String.eqb (nth (fst (fst r) - 1) (l_names l) EmptyString) p) (correlator (l_corr l) (S (length (l_names l)))).
Lemma corr_name l p N : NoDup (l_names l) -> 2 <= length (l_names l) -> 1 <= N -> In p (l_names l) -> p <> EmptyString ->
  plotCorrelated l (Some p) N = Ok (Some (firstn N (pairs_of l p))).
Proof.
  intros ND L2 HN I NE. unfold plotCorrelated. rewrite combos by lia. apply In_nth_error in I as (k & K).
  rewrite (C40_plot_name (l_names l) (l_corr l) (S (length (l_names l))) N k p) by (auto; cbn; lia). cbn [bind]. unfold pairs_of.
  f_equal. f_equal. f_equal. apply filter_ext_in. intros r Ir. apply kkR_rows in Ir as (R1 & R2 & R3 & _).
  destruct (Nat.eqb_spec (fst (fst r)) (S k)) as [E|E].
  - rewrite E. replace (S k - 1) with k by lia. rewrite (nth_error_nth _ _ _ K). symmetry. apply String.eqb_refl.
  - symmetry. apply String.eqb_neq. intros Z. apply E. assert (LT : fst (fst r) - 1 < length (l_names l)) by lia.
    assert (Q : nth_error (l_names l) (fst (fst r) - 1) = nth_error (l_names l) k) by (rewrite K, <- Z; apply nth_error_nth'; exact LT).
    assert (U := proj1 (NoDup_nth_error (l_names l)) ND (fst (fst r) - 1) k LT Q). lia.
Qed.
Lemma corr_none l N : 2 <= length (l_names l) -> 1 <= N -> plotCorrelated l None N = Ok (Some (firstn N (correlator (l_corr l) (S (length (l_names l)))))).
Proof. intros L2 HN. unfold plotCorrelated. rewrite combos by lia. now rewrite C40_plot_all by lia. Qed.
Lemma corr_each_ok l a : forall ns (xs : list (list row)) pt, Forall2 (fun n x => plotCorrelated l n (a_N a) = Ok (Some x)) ns xs ->
  corr_each l a ns pt = (map (fun x => Draw (FCorr x (a_v a)) (a_d a)) xs, inr (match rev xs with [] => pt | x :: _ => Some (FCorr x (a_v a)) end)).
Proof.
  intros ns xs pt F. revert pt. induction F as [|n x ns xs H F IH]; intros pt; [reflexivity|]. cbn [corr_each map rev]. rewrite H, IH. f_equal. f_equal.
  destruct (rev xs) as [|y r]; reflexivity.
Qed.
(** With a file of at least two parameters: the path is set first if asked for; then the
    values are plotted if a ratio is given, then the strongest correlations of each
    parameter named, or of all; the last figure is shown.  Nothing to draw is an error *)
Theorem C97_figures load a file params l vs : a_pos a = file :: params -> load file = Ok l -> NoDup (l_names l) -> 2 <= length (l_names l) ->
  Forall (fun p => In p (l_names l) /\ p <> EmptyString) params ->
  (feqb (a_r a) fzero = false -> plot (l_names l) (l_hist l) (a_i a) (a_r a) (map PName params) = Ok vs) ->
  let path := if String.eqb (a_f a) EmptyString then [] else [SetPath (a_f a) (a_d a)] in
  let values := if feqb (a_r a) fzero then [] else [FValues vs (a_s a)] in
  let corrs := if a_N a =? 0 then [] else match params with
    | [] => [FCorr (firstn (a_N a) (correlator (l_corr l) (S (length (l_names l))))) (a_v a)]
    | _ => map (fun p => FCorr (firstn (a_N a) (pairs_of l p)) (a_v a)) params end in
  pv_main load a = (path ++ map (fun x => Draw x (a_d a)) (values ++ corrs), match rev (values ++ corrs) with [] => NoAnalysis | x :: _ => Shown x end).
Proof.
  intros P L ND L2 F V path values corrs. unfold pv_main. rewrite P, L. fold path.
  assert (PT : match a_f a with EmptyString => [] | f => [SetPath f (a_d a)] end = path) by (unfold path; destruct (a_f a); reflexivity). rewrite PT. clear PT.
  assert (E1 : (if feqb (a_r a) fzero then Ok None else bind (plot (l_names l) (l_hist l) (a_i a) (a_r a) (map PName params)) (fun s => Ok (Some (FValues s (a_s a))))) =
    Ok (match values with [] => None | x :: _ => Some x end)) by (unfold values; destruct (feqb (a_r a) fzero) eqn:R; [reflexivity|rewrite V by reflexivity; reflexivity]).
  rewrite E1. set (pt := match values with [] => None | x :: _ => Some x end).
  assert (E2 : match pt with Some x => [Draw x (a_d a)] | None => [] end = map (fun x => Draw x (a_d a)) values) by (unfold pt, values; destruct (feqb (a_r a) fzero); reflexivity). rewrite E2.
  assert (E3 : exists xs, corrs = map (fun x => FCorr x (a_v a)) xs /\ (if a_N a =? 0 then ([], inr pt) else corr_each l a (match params with [] => [None] | _ => map Some params end) pt) =
    (map (fun x => Draw (FCorr x (a_v a)) (a_d a)) xs, inr (match rev xs with [] => pt | x :: _ => Some (FCorr x (a_v a)) end))).
  { unfold corrs. destruct (Nat.eqb_spec (a_N a) 0) as [Z|Z]; [exists []; split; reflexivity|]. destruct params as [|p0 ps] eqn:EP.
    - exists [firstn (a_N a) (correlator (l_corr l) (S (length (l_names l))))]. split; [reflexivity|]. apply corr_each_ok. constructor; [|constructor]. apply corr_none; lia.
    - rewrite <- EP in *. exists (map (fun p => firstn (a_N a) (pairs_of l p)) params). split; [now rewrite map_map|]. apply corr_each_ok. clear - F ND L2 Z.
      induction F as [|p ps [I NE] F IH]; cbn [map]; constructor; [apply corr_name; auto; lia|exact IH]. }
  destruct E3 as (xs & EC & ->). rewrite map_app, app_assoc. rewrite EC, map_map. f_equal. rewrite rev_app_distr, <- map_rev. destruct (rev xs) as [|x r]; cbn [map app]; [|reflexivity].
  unfold pt, values. destruct (feqb (a_r a) fzero); reflexivity.
Qed.
(** With a single parameter and -N there always is an error in the end, also if the values
    were plotted because of -r *)
Theorem C97_one_parameter load a file params l : a_pos a = file :: params -> load file = Ok l -> length (l_names l) < 2 -> a_N a <> 0 ->
  snd (pv_main load a) = NoAnalysis \/ exists e, snd (pv_main load a) = Failed e.
Proof.
  intros P L L2 N. unfold pv_main. rewrite P, L.
  destruct (if feqb (a_r a) fzero then Ok None else bind (plot (l_names l) (l_hist l) (a_i a) (a_r a) (map PName params)) (fun s => Ok (Some (FValues s (a_s a))))) as [pt|e]; [|right; now exists e].
  left. destruct (Nat.eqb_spec (a_N a) 0) as [Z|_]; [congruence|].
  assert (E : forall ns pt, ns <> [] -> corr_each l a ns pt = ([], inr None)).
  { induction ns as [|n ns IH]; intros q NE; [congruence|]. cbn [corr_each]. unfold plotCorrelated at 1. rewrite no_combos by exact L2. destruct ns as [|m ns]; [reflexivity|]. apply IH. discriminate. }
  rewrite E by (destruct params; discriminate). reflexivity.
Qed.
(** -r does not ensure that a figure is shown *)
Definition one_hist : hist := mkHist 1 4 1 (fun _ => [fone; fone]) [0] [0] [] [] cpf_clear false.
Definition one_loaded : loaded := mkLoaded ["a"%string] one_hist (fun _ _ => fone).
Definition pv1 : pvargs := mkPv EmptyString EmptyString (fofZ 10) false 4 false false ["f"%string].
Theorem C97_ratio_refuted : ~ (forall load a file params l vs, a_pos a = file :: params -> load file = Ok l -> feqb (a_r a) fzero = false ->
  plot (l_names l) (l_hist l) (a_i a) (a_r a) (map PName params) = Ok vs -> exists x, snd (pv_main load a) = Shown x).
Proof.
  intros H. destruct (plot ["a"%string] one_hist false (fofZ 10) []) as [vs|] eqn:E.
  - destruct (H (fun _ => Ok one_loaded) pv1 "f"%string [] one_loaded vs eq_refl eq_refl eq_refl E) as (x & Q).
    destruct (C97_one_parameter (fun _ => Ok one_loaded) pv1 "f"%string [] one_loaded eq_refl eq_refl) as [A|(e & A)]; [cbn; lia|discriminate|congruence|congruence].
  - assert (C : match plot ["a"%string] one_hist false (fofZ 10) [] with Ok _ => true | _ => false end = true) by (vm_compute; reflexivity). rewrite E in C. discriminate.
Qed.
(** An unknown parameter is refused by value plots, but gives an empty figure of
    correlations *)
Theorem C97_unknown load a file l p rest : a_pos a = file :: p :: rest -> load file = Ok l -> ~ In p (l_names l) -> feqb (a_r a) fzero = false ->
  exists e, snd (pv_main load a) = Failed e.
Proof.
  intros P L N R. unfold pv_main. rewrite P, L, R. destruct (plot (l_names l) (l_hist l) (a_i a) (a_r a) (map PName (p :: rest))) as [s|e] eqn:E; [|now exists e]. exfalso.
  assert (B : exists e, arg2k (l_names l) (PName p) = Raise e).
  { cbn. unfold name2k. assert (IX : index_of (String.eqb p) (l_names l) = None); [|rewrite IX; eauto]. revert N. clear. induction (l_names l) as [|q ns IH]; intros N; [reflexivity|].
    cbn. destruct (String.eqb_spec p q) as [->|_]; [destruct N; now left|]. rewrite IH; [reflexivity|]. intros I. apply N. now right. }
  destruct B as (e & B). unfold plot in E. cbn [map args2names ints bind] in E. unfold value_vs_SSE at 1 in E. cbn [args2names ints bind] in E.
  destruct (selected (l_hist l) SInPop (a_r a)) as [rows|]; [|discriminate]. cbn [bind mapM] in E. rewrite B in E. discriminate.
Qed.
Theorem C97_unknown_refuted : ~ (forall load a file l p, a_pos a = [file; p] -> load file = Ok l -> ~ In p (l_names l) -> 2 <= length (l_names l) -> a_N a <> 0 -> forall x, snd (pv_main load a) <> Shown x).
Proof.
  intros H. apply (H (fun _ => Ok (mkLoaded ["a"; "b"]%string one_hist (fun _ _ => fone))) (mkPv EmptyString EmptyString fzero false 4 false false ["f"; "c"]%string) "f"%string
    (mkLoaded ["a"; "b"]%string one_hist (fun _ _ => fone)) "c"%string eq_refl eq_refl) with (x := FCorr [] false); cbn; [intuition discriminate|lia|discriminate|reflexivity].
Qed.
Definition pv_l : loaded := mkLoaded ["a"; "b"; "c"]%string (mkHist 3 4 1 (fun _ => [fone; fone; fone; fone]) [0] [0] [] [] cpf_clear false) (fun k1 k2 => fofZ (Z.of_nat (k1 + k2))).
Definition pv_a : pvargs := mkPv "1200"%string "f.png"%string (fofZ 10) false 2 false false ["f"; "a"; "b"]%string.
Definition view (x : act) : (string * string) + (nat * list (nat * nat)) :=
  match x with SetPath f d => inl (f, d) | Draw (FValues s _) _ => inr (length s, []) | Draw (FCorr ps _) _ => inr (0, map fst ps) end.
Example C97_nonvacuous :
  NoDup (l_names pv_l) /\ (exists vs, plot (l_names pv_l) (l_hist pv_l) false (a_r pv_a) (map PName ["a"; "b"]%string) = Ok vs) /\
  map view (fst (pv_main (fun _ => Ok pv_l) pv_a)) = [inl ("f.png"%string, "1200"%string); inr (2, []); inr (0, [(1, 3); (1, 2)]); inr (0, [(2, 3)])] /\
  match snd (pv_main (fun _ => Ok pv_l) pv_a) with Shown (FCorr ps _) => map fst ps | _ => [] end = [(2, 3)].
Proof.
  split; [repeat constructor; cbn; intuition discriminate|]. split; [|split; vm_compute; reflexivity].
  assert (C : match plot (l_names pv_l) (l_hist pv_l) false (a_r pv_a) (map PName ["a"; "b"]%string) with Ok _ => true | _ => false end = true) by (vm_compute; reflexivity).
  destruct (plot (l_names pv_l) (l_hist pv_l) false (a_r pv_a) (map PName ["a"; "b"]%string)) as [vs|]; [now exists vs|discriminate].
Qed.

Print Assumptions C97_no_file.
Print Assumptions C97_figures.
Print Assumptions C97_one_parameter.
Print Assumptions C97_ratio_refuted.
Print Assumptions C97_unknown.
Print Assumptions C97_unknown_refuted.

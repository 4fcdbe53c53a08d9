(** * Properties C38-C42: plotting and selection helpers of ade/history.py *)
From Coq Require Import Reals String Ascii List Bool Arith ZArith Lia Lra Sorted Permutation.
From Flocq Require Import Core BinarySingleNaN.
From Verif Require Import Flt FltMore Py RankModel ParamProofs AnalModel AnalProofs AnalRange.
Import ListNotations.
Local Open Scope nat_scope.
#[local] Arguments fltb : simpl never.
#[local] Arguments fleb : simpl never.
#[local] Arguments fabs : simpl never.

(** ** C38 *)
Theorem C38_figures : forall A (params : list A), params <> [] ->
  exists figs, plot_figures params = Some (Ok figs) /\
    concat (map fst figs) = params /\
    Forall (fun f => 1 <= length (fst f) <= 9 /\ (length (fst f) = 1 -> length params = 1)) figs.
Proof.
  intros A l N. destruct (fig_loop_spec A (length l) l (Nat.le_refl _)) as (figs & E & C & Z & F). exists figs.
  unfold plot_figures. rewrite E. destruct figs as [|f figs]; [now destruct N; apply Z|]. split; auto. split; auto.
  eapply Forall_impl; [|exact F]. cbn beta. tauto.
Qed.
Print Assumptions C38_figures.
(** every figure's grid has room for its subplots: up to three rows of its
    one to three columns *)
Theorem C38_grid : forall A (params : list A) figs, plot_figures params = Some (Ok figs) ->
  Forall (fun f => 1 <= snd f <= 3 /\ length (fst f) <= 3 * snd f) figs.
Proof.
  intros A l figs E. destruct (fig_loop_spec A (length l) l (Nat.le_refl _)) as (figs' & E' & C & Z & F).
  unfold plot_figures in E. rewrite E' in E. destruct figs'; inversion E; subst. eapply Forall_impl; [|exact F]. cbn beta. tauto.
Qed.
Print Assumptions C38_grid.
(** the number of subplots of each figure: full figures of nine, with four and
    four, or four and six, at the end instead of eight, or nine and one *)
Theorem C38_sizes : forall A (params : list A) figs q r, plot_figures params = Some (Ok figs) ->
  length params = 9 * q + r -> r < 9 ->
  map (fun f => length (fst f)) figs =
    match r, q with
    | 0, _ => repeat 9 q
    | 1, S q' => repeat 9 q' ++ [4; 6]
    | 8, _ => repeat 9 q ++ [4; 4]
    | _, _ => repeat 9 q ++ [r]
    end.
Proof.
  intros A l figs q r E L R. assert (K : forall fuel (l : list A) figs q, fig_loop fuel l = Some figs -> length l = 9 * q + r ->
    map (fun f : list A * nat => length (fst f)) figs =
    match r, q with 0, _ => repeat 9 q | 1, S q' => repeat 9 q' ++ [4; 6] | 8, _ => repeat 9 q ++ [4; 4] | _, _ => repeat 9 q ++ [r] end).
  { clear E L l figs q. assert (Step : forall fuel (l : list A) figs, fig_loop fuel l = Some figs -> l <> [] -> exists f figs',
      figs = f :: figs' /\ length (fst f) = Nat.min (pick_N (length l)) (length l) /\ exists fuel', fig_loop fuel' (skipn (pick_N (length l)) l) = Some figs' /\ fuel = S fuel').
    { intros fuel l figs E N. destruct l as [|a l]; [congruence|]. destruct fuel as [|fuel]; [discriminate|]. cbn [fig_loop] in E. cbv zeta in E.
      destruct (fig_loop fuel (skipn _ _)) as [figs'|] eqn:E'; [|discriminate]. injection E as <-. eexists _, figs'. split; [reflexivity|]. cbn [fst].
      rewrite firstn_length. split; [reflexivity|]. exists fuel. split; auto. }
    assert (Nil : forall fuel figs (l : list A), fig_loop fuel l = Some figs -> length l = 0 -> figs = []).
    { intros fuel figs l E Z. destruct l; [|discriminate]. destruct fuel; cbn [fig_loop] in E; congruence. }
    assert (One : forall fuel (l : list A) figs n, fig_loop fuel l = Some figs -> length l = n -> 1 <= n -> pick_N n = n -> map (fun f => length (fst f)) figs = [n]).
    { intros fuel l figs n E Ln N1 P. destruct (Step _ _ _ E) as (f & figs' & -> & Lf & fuel' & E' & _); [intros ->; simpl in Ln; lia|].
      rewrite Ln, P in *. rewrite (Nil _ _ _ E'); [|rewrite skipn_length; lia]. cbn [map]. f_equal. rewrite Lf. apply Nat.min_id. }
    assert (Two : forall fuel (l : list A) figs n m, fig_loop fuel l = Some figs -> length l = n -> pick_N n = 4 -> n = 4 + m -> 1 <= m -> pick_N m = m -> map (fun f => length (fst f)) figs = [4; m]).
    { intros fuel l figs n m E Ln P Nm M1 P2. destruct (Step _ _ _ E) as (f & figs' & -> & Lf & fuel' & E' & _); [intros ->; simpl in Ln; lia|].
      rewrite Ln, P in *. cbn [map]. rewrite Lf. f_equal; [lia|]. apply (One fuel' (skipn 4 l) figs' m); auto. rewrite skipn_length. lia. }
    induction fuel as [|fuel IH]; intros l figs q E L.
    - destruct l; [|discriminate]. cbn [fig_loop] in E. injection E as <-. simpl in L. assert (r = 0) by lia. assert (q = 0) by lia. subst. reflexivity.
    - destruct q as [|q].
      + rewrite Nat.mul_0_r, Nat.add_0_l in L.
        do 9 (destruct r as [|r]; [first [now rewrite (Nil _ _ _ E L)|apply (One _ _ _ _ E L); [lia|reflexivity]|apply (Two _ _ _ _ 4 E L); [reflexivity|reflexivity|lia|reflexivity]]|]). lia.
      + destruct (Nat.eq_dec (9 * S q + r) 10) as [E10|N10].
        * assert (q = 0) by lia. assert (r = 1) by lia. subst. apply (Two _ _ _ _ 6 E L); [reflexivity|reflexivity|lia|reflexivity].
        * assert (P : pick_N (length l) = 9).
          { rewrite L. unfold pick_N. destruct (Nat.eqb_spec (9 * S q + r) 8); [lia|]. destruct (Nat.eqb_spec (9 * S q + r) 10); [lia|]. cbn [orb].
            destruct (Nat.ltb_spec 8 (9 * S q + r)); lia. }
          destruct (Step _ _ _ E) as (f & figs' & -> & Lf & fuel' & E' & Ef); [intros ->; simpl in L; lia|]. injection Ef as <-. rewrite P in *.
          cbn [map]. rewrite (IH _ _ q E'); [|rewrite skipn_length; lia]. replace (length (fst f)) with 9 by lia.
          destruct q as [|q]; [|do 9 (destruct r as [|r]; [reflexivity|]); lia].
          destruct r as [|[|r]]; [reflexivity|lia|]. do 7 (destruct r as [|r]; [reflexivity|]). lia. }
  unfold plot_figures in E. destruct (fig_loop (length l) l) as [[|f fs]|] eqn:Ef; inversion E; subst figs. exact (K _ _ _ _ Ef L).
Qed.
Print Assumptions C38_sizes.
(** with no parameter selected plot fails instead of showing nothing *)
Theorem C38_nothing_refuted : forall A, plot_figures (@nil A) = Some (Raise UnboundLocalError).
Proof. reflexivity. Qed.
Print Assumptions C38_nothing_refuted.
Example C38_ex : plot_figures (seq 0 19) = Some (Ok [(seq 0 9, 3); (seq 9 4, 2); (seq 13 6, 2)]) /\ seq 0 19 <> [].
Proof. split; [reflexivity|discriminate]. Qed.

(** ** C39 *)
(** n figures get n different paths, whatever the base path *)
Theorem C39_distinct : forall base n, length (next_paths n (set_path base)) = n /\ NoDup (next_paths n (set_path base)).
Proof.
  intros base n. rewrite next_paths_spec, map_length, seq_length. split; auto.
  assert (Z : f_count (set_path base) = 0) by (unfold set_path; destruct (path_split base), (path_splitext s0); reflexivity). rewrite Z.
  assert (P : forall k, In k (seq 1 n) -> 1 <= k) by (intros k I; apply in_seq in I; lia). assert (D := seq_NoDup n 1).
  induction (seq 1 n) as [|k l IH]; cbn [map]; constructor.
  - inversion D; subst. rewrite in_map_iff. intros (j & E & J). assert (j = k) by (apply (numbered_inj (set_path base)); [apply P|apply P|exact E]; simpl; auto). subst j. auto.
  - inversion D; subst. apply IH; auto. intros; apply P; simpl; auto.
Qed.
Print Assumptions C39_distinct.

(** a directory part as a user would write it: none, only slashes, or a
    directory followed by one slash *)
Definition dir_part (d : string) : Prop :=
  d = EmptyString \/ (d <> EmptyString /\ all_char slash d = true) \/
  (exists d', d = (d' ++ "/")%string /\ d' <> EmptyString /\ ends_with slash d' = false).
(** a file name with an extension *)
Definition named (stem ext : string) : Prop :=
  has_char slash stem = false /\ has_char slash ext = false /\ has_char dot ext = false /\ all_char dot stem = false.
Lemma split_dir : forall d f, dir_part d -> has_char slash f = false ->
  exists d', path_split (d ++ f) = (d', f) /\ forall b, path_join d' b = (d ++ b)%string.
Proof.
  intros d f D F. unfold path_split. destruct D as [->|[[N A]|(d' & -> & N & E)]].
  - exists EmptyString. simpl. rewrite last_split_none; auto.
  - assert (S : exists d0, d = (d0 ++ "/")%string).
    { clear F. induction d as [|a d IH]; [congruence|]. cbn [all_char] in A. apply andb_true_iff in A as [A1 A2]. apply Ascii.eqb_eq in A1. subst a.
      destruct d as [|b d]; [exists EmptyString; reflexivity|]. destruct IH as [d0 ->]; [discriminate|auto|]. exists (String slash d0). reflexivity. }
    destruct S as [d0 ->]. exists (d0 ++ "/")%string. rewrite app_assoc_s. simpl String.append at 2. rewrite last_split_app by auto. cbv zeta. rewrite A.
    split; auto. intros b. unfold path_join. rewrite ends_app. now rewrite orb_true_r.
  - exists d'. rewrite app_assoc_s. change ("/" ++ f)%string with (String slash f). rewrite last_split_app by auto. cbv zeta.
    assert (NA : all_char slash (d' ++ "/") = false).
    { rewrite all_char_app. destruct (all_char slash d') eqn:A; auto. apply all_char_ends in A; auto. congruence. }
    rewrite NA. change "/"%string with (String slash ""). rewrite rstrip_snoc, rstrip_id by auto. split; auto.
    intros b. unfold path_join. rewrite E. apply String.eqb_neq in N. rewrite N. simpl orb. cbv iota. now rewrite app_assoc_s.
Qed.
(** the first path is the base path; later ones have "-2", "-3"... before the
    extension, in the same directory *)
Theorem C39_shape : forall d stem ext n, dir_part d -> named stem ext -> 1 <= n ->
  nth_error (next_paths n (set_path (d ++ stem ++ "." ++ ext))) (n - 1) =
  Some (if Nat.eqb n 1 then d ++ stem ++ "." ++ ext else d ++ stem ++ "-" ++ dec n ++ "." ++ ext)%string.
Proof.
  intros d stem ext n D (S1 & S2 & S3 & S4) Hn.
  assert (NS : has_char slash (stem ++ "." ++ ext) = false) by (rewrite !has_char_app, S1, S2; reflexivity).
  destruct (split_dir d _ D NS) as (d' & E & J).
  assert (SP : set_path (d ++ stem ++ "." ++ ext) = mkSpec d' stem ext 0).
  { unfold set_path. rewrite E. unfold path_splitext. change ("." ++ ext)%string with (String dot ext). rewrite last_split_app by auto. rewrite S4.
    cbn [lstrip]. rewrite Ascii.eqb_refl, lstrip_none by auto. reflexivity. }
  rewrite SP, next_paths_spec. cbn [f_count]. rewrite nth_error_map.
  replace (nth_error (seq 1 n) (n - 1)) with (Some n).
  2:{ rewrite (nth_error_nth' _ 0) by (rewrite seq_length; lia). rewrite seq_nth by lia. f_equal. lia. }
  simpl option_map. unfold numbered. cbn [f_dir f_base f_ext]. rewrite J. f_equal. destruct (Nat.eqb_spec n 1); [subst; reflexivity|].
  destruct (Nat.ltb_spec 1 n); [|lia]. now rewrite !app_assoc_s.
Qed.
Print Assumptions C39_shape.
Example C39_ex : dir_part "/tmp/"%string /\ named "plot"%string "png"%string /\
  next_paths 3 (set_path "/tmp/plot.png") = ["/tmp/plot.png"; "/tmp/plot-2.png"; "/tmp/plot-3.png"]%string.
Proof. split; [right; right; exists "/tmp"%string; repeat split; discriminate|]. split; [repeat split; reflexivity|vm_compute; reflexivity]. Qed.
(** without an extension the first path is not the base path: a dot is added *)
Theorem C39_no_extension_refuted : exists base, next_paths 1 (set_path base) = [(base ++ ".")%string].
Proof. exists "plot"%string. reflexivity. Qed.
Print Assumptions C39_no_extension_refuted.
(** uniqueness does not extend to a change of base path *)
Theorem C39_two_bases_refuted : exists b1 b2, b1 <> b2 /\
  exists p, In p (next_paths 2 (set_path b1)) /\ In p (next_paths 1 (set_path b2)).
Proof. exists "plot.png"%string, "plot-2.png"%string. split; [discriminate|]. exists "plot-2.png"%string. split; vm_compute; auto. Qed.
Print Assumptions C39_two_bases_refuted.

(** ** C40 *)
Theorem C40_each_pair_once : forall corr Nc,
  NoDup (map fst (correlator corr Nc)) /\
  forall k1 k2 R, In (k1, k2, R) (correlator corr Nc) <-> 1 <= k1 /\ k1 < k2 /\ k2 < Nc /\ R = corr k1 k2.
Proof.
  intros corr Nc. split; [|intros k1 k2 r; apply (kkR_rows corr Nc (k1, k2, r))].
  apply (Permutation_NoDup (l := map fst (kkR corr Nc))); [apply Permutation_map; symmetry; apply corr_perm|].
  assert (S := kkR_lex corr Nc). induction S as [|a l S IH F]; simpl; constructor; auto.
  rewrite in_map_iff. intros (b & E & B). rewrite Forall_forall in F. specialize (F b B). unfold lex in F. rewrite E in F. lia.
Qed.
Print Assumptions C40_each_pair_once.
(** strongest first; equally strong pairs in column order *)
Theorem C40_strongest_first : forall corr Nc, (forall k1 k2, isnan (corr k1 k2) = false) ->
  StronglySorted (fun a b => fltb (fabs (snd b)) (fabs (snd a)) = true \/
    (feqb (fabs (snd a)) (fabs (snd b)) = true /\ (fst (fst a) < fst (fst b) \/ (fst (fst a) = fst (fst b) /\ snd (fst a) < snd (fst b))))) (correlator corr Nc).
Proof.
  intros corr Nc N. apply corr_sorted; [|apply kkR_lex]. apply Forall_forall. intros [[a b] c] I. apply kkR_in in I as (_ & _ & _ & ->). apply N.
Qed.
Print Assumptions C40_strongest_first.
(** a parameter that never varies has correlation NaN, and then the order is lost *)
Theorem C40_nan_refuted : exists corr Nc a b, nth_error (map fst (correlator corr Nc)) 0 = Some a /\ In b (map fst (correlator corr Nc)) /\
  isnan (corr (fst a) (snd a)) = false /\ isnan (corr (fst b) (snd b)) = false /\
  fltb (fabs (corr (fst a) (snd a))) (fabs (corr (fst b) (snd b))) = true.
Proof.
  exists (fun k1 k2 => if k1 =? 2 then fone else if k2 =? 2 then flit 1 (-3) else fnan), 4, (1, 2), (2, 3).
  split; [vm_compute; reflexivity|]. split; [vm_compute; auto|]. split; [reflexivity|]. split; reflexivity.
Qed.
Print Assumptions C40_nan_refuted.
Lemma corr_len : forall corr Nc, 2 * length (correlator corr Nc) = (Nc - 1) * (Nc - 1 - 1).
Proof.
  intros. unfold correlator. rewrite (Permutation_length (corr_perm _)). unfold kkR.
  assert (I : forall k1 m a, length (flat_map (fun k2 => if k1 <? k2 then [(k1, k2, corr k1 k2)] else []) (seq a m)) = (a + m) - Nat.max a (S k1)).
  { intros k1. induction m as [|m IH]; intros a; simpl; [lia|]. rewrite app_length, IH. destruct (Nat.ltb_spec k1 a); simpl; lia. }
  assert (O : forall m a, a + m <= Nc -> 1 <= a -> 2 * length (flat_map (fun k1 => flat_map (fun k2 => if k1 <? k2 then [(k1, k2, corr k1 k2)] else []) (seq 1 (Nc - 1))) (seq a m))
      = m * (2 * (Nc - a) - m - 1)).
  { induction m as [|m IH]; intros a H1 H2; auto. cbn [seq flat_map]. rewrite app_length, I, Nat.mul_add_distr_l, IH by lia. nia. }
  destruct Nc as [|Nc]; auto. rewrite O by lia. f_equal. lia.
Qed.
(** without a name the N strongest pairs are drawn (all of them if there are fewer) *)
Theorem C40_plot_all : forall names corr Nc N, 1 <= N -> plot_correlated names corr Nc None N = Ok (firstn N (correlator corr Nc)).
Proof.
  intros. unfold plot_correlated. cbv zeta. assert (L := corr_len corr Nc). destruct (Nat.eqb_spec ((Nc - 1) * (Nc - 1 - 1) / 2) 0) as [E|E].
  - rewrite <- L, Nat.mul_comm, Nat.div_mul in E by lia. destruct (correlator corr Nc); [now rewrite firstn_nil|discriminate].
  - rewrite loop_all. rewrite <- L, Nat.mul_comm, Nat.div_mul in * by lia. destruct (Nat.ltb_spec (length (correlator corr Nc)) N); rewrite take_count_firstn, Nat.sub_0_r by lia; auto.
    now rewrite !firstn_all2 by lia.
Qed.
Print Assumptions C40_plot_all.
(** with a name: the N strongest among the pairs whose first column is that
    parameter *)
Theorem C40_plot_name : forall names corr Nc N k name, 1 <= N -> NoDup names -> length names = Nc - 1 ->
  nth_error names k = Some name -> name <> ""%string ->
  plot_correlated names corr Nc (Some name) N = Ok (firstn N (filter (fun r => fst (fst r) =? S k) (correlator corr Nc))).
Proof.
  intros names corr Nc N k name HN ND L E NE. unfold plot_correlated. cbv zeta. assert (Len := corr_len corr Nc).
  assert (C : (Nc - 1) * (Nc - 1 - 1) / 2 = length (correlator corr Nc)) by (rewrite <- Len, Nat.mul_comm; apply Nat.div_mul; lia). rewrite C.
  assert (FL : length (filter (first_is (S k)) (correlator corr Nc)) <= length (correlator corr Nc)).
  { generalize (correlator corr Nc). induction l; simpl; auto. destruct (first_is _ _); simpl; lia. }
  change (fun r => fst (fst r) =? S k) with (first_is (S k)).
  destruct (Nat.eqb_spec (length (correlator corr Nc)) 0) as [Z|Z].
  - destruct (correlator corr Nc); [now rewrite firstn_nil|discriminate].
  - rewrite (loop_name names k name); auto.
    + destruct (Nat.ltb_spec (length (correlator corr Nc)) N); rewrite take_count_firstn, Nat.sub_0_r by lia; auto. f_equal. etransitivity; [|symmetry]; apply firstn_all2; [exact FL|]. etransitivity; [exact FL|lia].
    + apply Forall_forall. intros r I. apply kkR_rows in I. lia.
Qed.
Print Assumptions C40_plot_name.
(** so the last parameter is never shown although the docstring promises its
    correlations with everything else *)
Theorem C40_last_refuted : forall names corr Nc N name, 1 <= N -> NoDup names -> length names = Nc - 1 ->
  nth_error names (Nc - 2) = Some name -> name <> ""%string -> plot_correlated names corr Nc (Some name) N = Ok [].
Proof.
  intros names corr Nc N name HN ND L E NE. rewrite (C40_plot_name names corr Nc N (Nc - 2) name) by auto.
  rewrite filter_none; [now rewrite firstn_nil|]. intros r I. apply kkR_rows in I. apply Nat.eqb_neq. lia.
Qed.
Print Assumptions C40_last_refuted.
(** N = 0 draws everything *)
Theorem C40_zero_refuted : exists names corr Nc, plot_correlated names corr Nc None 0 = Ok (correlator corr Nc) /\ correlator corr Nc <> [].
Proof. exists ["a"; "b"]%string, (fun _ _ => fone), 3. split; [reflexivity|discriminate]. Qed.
Print Assumptions C40_zero_refuted.
Definition c40_corr (k1 k2 : nat) : f64 := if k1 =? 2 then fofZ (-1) else if k2 =? 2 then flit 1 (-3) else flit 1 (-1).
Example C40_ex : map fst (correlator c40_corr 4) = [(2, 3); (1, 3); (1, 2)] /\ (forall k1 k2, isnan (c40_corr k1 k2) = false) /\
  NoDup ["a"; "b"; "c"]%string /\ nth_error ["a"; "b"; "c"]%string 0 = Some "a"%string /\
  nth_error ["a"; "b"; "c"]%string (4 - 2) = Some "c"%string.
Proof.
  split; [vm_compute; reflexivity|]. split; [intros; unfold c40_corr; destruct (k1 =? 2), (k2 =? 2); reflexivity|].
  split; [repeat constructor; simpl; intuition discriminate|]. auto.
Qed.

(** ** C41 *)
Theorem C41_inverse : forall names, NoDup names ->
  (forall n, In n names -> exists k, name2k names n = Ok k /\ (1 <= k <= Z.of_nat (length names))%Z /\ k2name names k = Ok n) /\
  (forall k, (1 <= k <= Z.of_nat (length names))%Z -> exists n, k2name names k = Ok n /\ In n names /\ name2k names n = Ok k).
Proof.
  intros names ND. split.
  - intros n I. apply In_nth_error in I as [k K]. exists (Z.of_nat (S k)). unfold name2k. rewrite (index_of_nodup _ _ _ ND K).
    assert (k < length names) by (apply nth_error_Some; congruence). split; [f_equal; lia|]. split; [lia|]. now apply k2name_nth.
  - intros k Hk. destruct (Z.to_nat k) as [|j] eqn:J; [lia|]. replace k with (Z.of_nat (S j)) in * by lia.
    destruct (nth_error names j) as [n|] eqn:E; [|apply nth_error_None in E; lia]. exists n.
    split; [now apply k2name_nth|]. split; [eapply nth_error_In; eauto|]. unfold name2k. rewrite (index_of_nodup _ _ _ ND E). f_equal. lia.
Qed.
Print Assumptions C41_inverse.
Theorem C41_unknown : forall names n, ~ In n names -> name2k names n = Raise ValueError.
Proof.
  intros names n N. unfold name2k. destruct (index_of (String.eqb n) names) eqn:E; auto. apply index_of_nth in E as (x & X & Y & _).
  apply String.eqb_eq in Y. subst. apply nth_error_In in X. tauto.
Qed.
Print Assumptions C41_unknown.
(** the SSE column 0 is given the last parameter's name rather than refused *)
Theorem C41_sse_column_refuted : forall names n, k2name (names ++ [n]) 0 = Ok n.
Proof.
  intros. unfold k2name, py_index. change (0 - 1)%Z with (-1)%Z. change (-1 <? 0)%Z with true. cbv iota zeta. rewrite app_length. cbn [length].
  destruct (Z.ltb_spec (Z.of_nat (length names + 1) + -1) 0); [lia|]. assert (E : Z.to_nat (Z.of_nat (length names + 1) + -1) = length names) by lia. rewrite E.
  rewrite nth_error_app2, Nat.sub_diag by lia. reflexivity.
Qed.
Print Assumptions C41_sse_column_refuted.
Example C41_ex : NoDup ["a"; "b"; "c"]%string /\ name2k ["a"; "b"; "c"]%string "b" = Ok 2%Z.
Proof. split; [repeat constructor; simpl; intuition discriminate|reflexivity]. Qed.

(** ** C42 *)
Lemma Ok_inj : forall A (a b : A), Ok a = Ok b -> a = b. Proof. congruence. Qed.
(** Kf12 over consecutive intervals *)
Fixpoint chain (rd : f64 -> f64) (sse : nat -> f64) (K : list nat) (f : f64) (fs : list f64) : list (res (list nat)) :=
  match fs with [] => [] | g :: fs => Kf12 rd sse K f g :: chain rd sse K g fs end.
(** a history as Analysis gets it: rows in ascending order of SSE, SSEs finite,
    non-negative and binary32 *)
Definition okrows (sse : nat -> f64) (K : list nat) : Prop :=
  K <> [] /\ Forall (fun k => isfin (sse k) = true /\ fleb fzero (sse k) = true /\ b32 (sse k)) K /\
  StronglySorted (fun a b => fleb (sse a) (sse b) = true) K.
Lemma rows_span : forall sse K k0 t, K = k0 :: t -> okrows sse K -> okspan (sse k0) (sse (last K k0)).
Proof.
  intros sse K k0 t -> (_ & F & S). assert (L : In (last (k0 :: t) k0) (k0 :: t)).
  { assert (G : forall (l : list nat) x d, In (last (x :: l) d) (x :: l)).
    { induction l as [|y l IH]; intros x d; [simpl; auto|]. right. apply (IH y). }
    apply G. }
  rewrite Forall_forall in F. destruct (F k0) as (A1 & A2 & A3); [simpl; auto|]. destruct (F _ L) as (B1 & B2 & B3).
  split; auto. split; [|auto]. inversion S; subst. destruct L as [L|L]; [rewrite <- L; apply fleb_refl; now apply nan_fin|]. rewrite Forall_forall in H2. now apply H2.
Qed.
(** consecutive intervals select, one after the other, exactly what the whole
    interval selects: each such record once, in order *)
Theorem C42_fractions : forall rd sse K f fs, precision rd -> okrows sse K ->
  isfin f = true -> Forall (fun g => isfin g = true) fs -> StronglySorted (fun a b => fleb a b = true) (f :: fs) -> fs <> [] ->
  exists parts whole, chain rd sse K f fs = map Ok parts /\ Kf12 rd sse K f (last fs f) = Ok whole /\ concat parts = whole.
Proof.
  intros rd sse K f fs P O Ff Ffs S N. assert (KX : exists k0 t, K = k0 :: t) by (destruct K as [|x y]; [now destruct O|eauto]). destruct KX as (k0 & t & EK). assert (Sp := rows_span sse K k0 t EK O).
  assert (KE : forall a b, Kf12 rd sse K a b = Ok (filter (within (fSSE rd (sse k0) (sse (last K k0)) a) (fSSE rd (sse k0) (sse (last K k0)) b) sse) K)) by (intros; rewrite EK; reflexivity). clear EK.
  destruct O as (_ & F & SK). set (T := fSSE rd (sse k0) (sse (last K k0))) in *.
  assert (NK : Forall (fun k => isnan (sse k) = false) K) by (eapply Forall_impl; [|exact F]; cbn beta; intros k (A & _); now apply nan_fin).
  revert f Ff S N. induction fs as [|g fs IH]; intros f Ff S N; [congruence|]. inversion Ffs; subst. inversion S; subst.
  destruct fs as [|g2 fs].
  - exists [filter (within (T f) (T g) sse) K], (filter (within (T f) (T g) sse) K). cbn [chain map last]. rewrite KE. simpl. rewrite app_nil_r. auto.
  - destruct (IH H2 g H1 H3) as (parts & whole & E1 & E2 & E3); [discriminate|].
    exists (filter (within (T f) (T g) sse) K :: parts), (filter (within (T f) (T (last (g2 :: fs) g)) sse) K).
    cbn [chain map]. rewrite KE. split; [f_equal; exact E1|]. rewrite KE in E2. injection E2 as E2.
    assert (LL : forall d d', last (g2 :: fs) d = last (g2 :: fs) d').
    { clear. revert g2. induction fs as [|x fs IH]; intros; auto. cbn [last] in *. apply IH. }
    split; [rewrite KE; change (last (g :: g2 :: fs) f) with (last (g2 :: fs) f); now rewrite (LL f g)|].
    cbn [concat]. rewrite E3, <- E2. apply filter_split; auto.
    + apply fSSE_mono; auto. rewrite Forall_forall in H4. apply H4. simpl; auto.
    + assert (In (last (g2 :: fs) g) (g2 :: fs)).
      { clear. revert g2. induction fs as [|x fs IH]; intros g2; [simpl; auto|]. right. apply (IH x). }
      apply fSSE_mono; auto; [rewrite Forall_forall in H2; now apply H2|]. inversion H3; subst. rewrite Forall_forall in H7. now apply H7.
Qed.
Print Assumptions C42_fractions.
(** the intervals are half-open: none selects a record twice, with any rounding
    and any SSEs *)
Theorem C42_disjoint : forall rd sse K f1 f2 f3 a b k, Kf12 rd sse K f1 f2 = Ok a -> Kf12 rd sse K f2 f3 = Ok b ->
  In k a -> ~ In k b.
Proof.
  intros rd sse K f1 f2 f3 a b k E1 E2 A B. destruct K as [|k0 t]; [discriminate|]. cbn [Kf12] in E1, E2. cbv zeta in *. apply Ok_inj in E1, E2. subst a b.
  apply filter_In in A as [_ A]. apply filter_In in B as [_ B]. apply andb_true_iff in A as [_ A]. apply andb_true_iff in B as [B _].
  assert (X := fltb_fleb_trans _ _ _ A B). now rewrite fltb_irrefl in X.
Qed.
Print Assumptions C42_disjoint.
(** starting from fraction 0 nothing below the last limit is left out *)
Theorem C42_from_best : forall rd sse K k0 t f whole, precision rd -> okrows sse K -> K = k0 :: t ->
  Kf12 rd sse K fzero f = Ok whole ->
  whole = filter (fun k => fltb (sse k) (fSSE rd (sse k0) (sse (last K k0)) f)) K.
Proof.
  intros rd sse K k0 t f whole P O EK E. assert (Sp := rows_span sse K k0 t EK O). subst K. apply Ok_inj in E. subst whole. apply filter_ext_in. intros k I.
  replace (fleb _ (sse k)) with true; auto. symmetry. apply fleb_spec. split; [apply fSSE_nan; auto|].
  destruct O as (_ & F & S). rewrite Forall_forall in F. destruct (F k I) as (A & _ & _). split; [now apply nan_fin|].
  rewrite fSSE_0 by auto. inversion S; subst. destruct I as [<-|I]; [lra|]. rewrite Forall_forall in H2. specialize (H2 k I). apply fleb_spec in H2. tauto.
Qed.
Print Assumptions C42_from_best.
(** but when all SSEs are equal no interval selects anything *)
Theorem C42_all_equal_refuted : exists sse K, okrows sse K /\ forall f, isfin f = true -> fltb fzero f = true -> Kf12 (fun x => x) sse K fzero f = Ok [].
Proof.
  exists (fun _ => fone), [0; 1]. split.
  - split; [discriminate|]. split; repeat constructor; vm_compute; auto.
  - intros f F _. cbn [Kf12]. cbv zeta. rewrite filter_none; auto. intros k _. apply andb_false_iff. right. cbn [last].
    assert (Z : exists s, fmul f (rnd32 (fsub fone fone)) = B754_zero s).
    { change (rnd32 (fsub fone fone)) with (B754_zero false : f64). destruct f; try discriminate; eexists; reflexivity. }
    unfold fSSE. cbv zeta. destruct Z as [s ->]. destruct s; vm_compute; reflexivity.
Qed.
Print Assumptions C42_all_equal_refuted.

Local Open Scope R_scope.
(** Kp12 over two consecutive portions: the record at the boundary is selected
    by both, the rest once *)
Theorem C42_portions : forall K p1 p2 p3, (Z.of_nat (length K) < 2^53)%Z ->
  fleb fzero p1 = true -> fleb p1 p2 = true -> fleb p2 p3 = true -> isfin p3 = true ->
  let N := fofZ (Z.of_nat (length K)) in
  isfin (fmul p3 N) = true -> B2R (fmul p2 N) < INR (length K) ->
  exists pre x post, Kp12 K p1 p2 = Ok (pre ++ [x]) /\ Kp12 K p2 p3 = Ok (x :: post) /\ Kp12 K p1 p3 = Ok (pre ++ x :: post) /\
    nth_error K (Z.to_nat (Zfloor (B2R (fmul p2 N)))) = Some x.
Proof.
  intros K p1 p2 p3 L L0 L1 L2 F3 N FN B. assert (L02 := fleb_trans _ _ _ L0 L1). assert (L13 := fleb_trans _ _ _ L1 L2).
  destruct (mul_floor K p2 p3 L L02 L2 F3 FN) as (F2 & FN2 & R2). destruct (mul_floor K p1 p2 L L0 L1 F2 FN2) as (F1 & FN1 & R1).
  unfold Kp12. cbv zeta. subst N. set (N := fofZ (Z.of_nat (length K))) in *. rewrite !ifloor_nonneg by (auto; lra). cbn [bind].
  assert (Z1 : (0 <= Zfloor (B2R (fmul p1 N)))%Z) by (apply Zfloor_lub; lra).
  assert (Z2 : (Zfloor (B2R (fmul p1 N)) <= Zfloor (B2R (fmul p2 N)))%Z) by (apply Zfloor_le; lra).
  assert (Z3 : (Zfloor (B2R (fmul p2 N)) <= Zfloor (B2R (fmul p3 N)))%Z) by (apply Zfloor_le; lra).
  assert (Z4 : (Zfloor (B2R (fmul p2 N)) < Z.of_nat (length K))%Z).
  { apply lt_IZR. rewrite <- INR_IZR_INZ. apply Rle_lt_trans with (2 := B). apply Zfloor_lb. }
  set (a := Zfloor (B2R (fmul p1 N))) in *. set (b := Zfloor (B2R (fmul p2 N))) in *. set (c := Zfloor (B2R (fmul p3 N))) in *. clearbody a b c. clear R1 R2 B.
  rewrite <- (Z2Nat.id a), <- (Z2Nat.id b), <- (Z2Nat.id c) by lia. set (a' := Z.to_nat a). set (b' := Z.to_nat b). set (c' := Z.to_nat c).
  replace (Z.of_nat b' + 1)%Z with (Z.of_nat (S b')) by lia. replace (Z.of_nat c' + 1)%Z with (Z.of_nat (S c')) by lia. rewrite Nat2Z.id. rewrite !slice_nat.
  assert (A1 : (a' <= b')%nat) by lia. assert (A2 : (b' <= c')%nat) by lia. assert (A3 : (b' < length K)%nat) by lia. clearbody a' b' c'. clear - A1 A2 A3.
  destruct (nth_error K b') as [x|] eqn:E; [|apply nth_error_None in E; lia]. destruct (nth_error_split _ _ E) as (u & v & -> & U). subst b'.
  exists (skipn a' u), x, (firstn (c' - length u) v).
  assert (S0 : skipn (length u) (u ++ x :: v) = x :: v) by (rewrite skipn_app, Nat.sub_diag, skipn_all; reflexivity).
  assert (S1 : skipn a' (u ++ x :: v) = skipn a' u ++ x :: v) by (rewrite skipn_app; replace (a' - length u)%nat with 0%nat by lia; reflexivity).
  assert (LS : length (skipn a' u) = (length u - a')%nat) by apply skipn_length.
  rewrite S0, S1. repeat split.
  - f_equal. rewrite firstn_app, LS. replace (S (length u) - a' - (length u - a'))%nat with 1%nat by lia. rewrite firstn_all2 by lia. reflexivity.
  - f_equal. replace (S c' - length u)%nat with (S (c' - length u)) by lia. reflexivity.
  - f_equal. rewrite firstn_app, LS, firstn_all2 by lia. replace (S c' - a' - (length u - a'))%nat with (S (c' - length u)) by lia. reflexivity.
Qed.
Print Assumptions C42_portions.
(** A lower portion below zero does not mean "from the first": it counts from the last, and so
    does the end *)
Theorem C42_negative : forall K p1 p2 a b, (Z.of_nat (length K) + 1 < 2^53)%Z -> (0 < a <= length K)%nat -> (0 < b <= length K)%nat ->
  let N := fofZ (Z.of_nat (length K)) in
  isfin (fmul p1 N) = true -> isfin (fmul p2 N) = true ->
  - INR a <= B2R (fmul p1 N) < 1 - INR a -> - INR (S b) <= B2R (fmul p2 N) < 1 - INR (S b) ->
  Kp12 K p1 p2 = Ok (firstn (a - b) (skipn (length K - a) K)).
Proof.
  intros K p1 p2 a b L La Lb N F1 F2 R1 R2. unfold Kp12. cbv zeta. fold N.
  assert (IF : forall x n, (0 < n <= S (length K))%nat -> isfin x = true -> - INR n <= B2R x < 1 - INR n -> ifloor x = Ok (- Z.of_nat n)%Z).
  { intros x n Ln F R. unfold ifloor, py_int. rewrite F. cbn [bind].
    assert (I : INR n = IZR (Z.of_nat n)) by apply INR_IZR_INZ.
    assert (n1 : 1 <= INR n) by (change 1 with (INR 1); apply le_INR; lia).
    rewrite ftrunc_val, Ztrunc_ceil by lra.
    destruct (Req_dec (B2R x) (- INR n)) as [E|E].
    - rewrite E, I, <- opp_IZR, Zceil_IZR. destruct (fofZ_val (- Z.of_nat n) ltac:(lia)) as [Fz Vz].
      destruct (fltb x (fofZ (- Z.of_nat n))) eqn:T; [|reflexivity]. exfalso. apply fltb_spec in T as (_ & _ & T). rewrite !key_fin in T by assumption. rewrite Vz, opp_IZR, <- I in T. lra.
    - assert (C : Zceil (B2R x) = (1 - Z.of_nat n)%Z) by (apply Zceil_imp; rewrite !minus_IZR, <- I; simpl; lra). rewrite C.
      destruct (fofZ_val (1 - Z.of_nat n) ltac:(lia)) as [Fz Vz].
      destruct (fltb x (fofZ (1 - Z.of_nat n))) eqn:T; [f_equal; lia|]. exfalso. apply fltb_false in T; try (apply nan_fin; assumption). rewrite !key_fin in T by assumption.
      rewrite Vz, minus_IZR, <- I in T. lra. }
  rewrite (IF _ a ltac:(lia) F1 R1), (IF _ (S b) ltac:(lia) F2 R2). cbn [bind]. f_equal. unfold py_slice, clip_bound.
  replace (- Z.of_nat (S b) + 1)%Z with (- Z.of_nat b)%Z by lia.
  destruct (Z.ltb_spec (- Z.of_nat a) 0); [|lia]. destruct (Z.ltb_spec (- Z.of_nat b) 0); [|lia].
  replace (Z.to_nat (Z.min (Z.max 0 (- Z.of_nat a + Z.of_nat (length K))) (Z.of_nat (length K)))) with (length K - a)%nat by lia.
  replace (Z.to_nat (Z.min (Z.max 0 (- Z.of_nat b + Z.of_nat (length K))) (Z.of_nat (length K)))) with (length K - b)%nat by lia.
  f_equal. lia.
Qed.
Print Assumptions C42_negative.
Theorem C42_negative_refuted : ~ (forall K p1 p2, fleb p1 fzero = true -> fleb fone p2 = true -> isfin p1 = true -> isfin p2 = true -> Kp12 K p1 p2 = Ok K).
Proof. intros H. specialize (H [1; 2; 3; 5]%nat (flit (-1) (-1)) fone). assert (E : Kp12 [1; 2; 3; 5]%nat (flit (-1) (-1)) fone = Ok [3; 5]%nat) by (vm_compute; reflexivity). rewrite E in H. discriminate H; vm_compute; reflexivity. Qed.
Print Assumptions C42_negative_refuted.
Example C42_negative_ex : Kp12 [1; 2; 3; 5]%nat (flit (-3) (-2)) (flit (-1) (-1)) = Ok [2; 3]%nat.
Proof. vm_compute. reflexivity. Qed.
Example C42_ex : okrows (fun k => fofZ (Z.of_nat k)) [1; 2; 3; 5]%nat /\
  Kf12 rnd32 (fun k => fofZ (Z.of_nat k)) [1; 2; 3; 5]%nat fzero (flit 1 (-1)) = Ok [1; 2]%nat /\
  Kf12 rnd32 (fun k => fofZ (Z.of_nat k)) [1; 2; 3; 5]%nat (flit 1 (-1)) (fofZ 2) = Ok [3; 5]%nat /\
  Kp12 [1; 2; 3; 5]%nat fzero (flit 1 (-1)) = Ok [1; 2; 3]%nat /\
  Kp12 [1; 2; 3; 5]%nat (flit 1 (-1)) fone = Ok [3; 5]%nat.
Proof. split; [split; [discriminate|split; repeat constructor; vm_compute; auto]|]. repeat split; vm_compute; reflexivity. Qed.

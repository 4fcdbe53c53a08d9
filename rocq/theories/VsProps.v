(** * Plots of parameter values against SSE (C91). *)
From Coq Require Import String List Bool Arith ZArith Lia Sorted Permutation.
From Verif Require Import Flt Py ParamModel ParamProofs RankModel AnalModel AnalProofs HistModel HistProofs HistProps VsModel.
Import ListNotations.
Local Open Scope nat_scope.

(** ** Lemmas *)
Lemma sorted_same (l1 l2 : list nat) : StronglySorted lt l1 -> StronglySorted lt l2 -> (forall x, In x l1 <-> In x l2) -> l1 = l2.
Proof.
  intros S1. revert l2. induction S1 as [|a l1 S1 IH F1]; intros l2 S2 E.
  - destruct l2 as [|b l2]; [reflexivity|]. destruct (proj2 (E b) (or_introl eq_refl)).
  - destruct S2 as [|b l2 S2 F2]; [destruct (proj1 (E a) (or_introl eq_refl))|].
    rewrite Forall_forall in F1, F2.
    assert (a = b). { destruct (proj1 (E a) (or_introl eq_refl)) as [X|X]; [auto|]. destruct (proj2 (E b) (or_introl eq_refl)) as [Y|Y]; [auto|].
      specialize (F1 b Y). specialize (F2 a X). lia. }
    subst b. f_equal. apply IH; [exact S2|]. intros x. split; intros I.
    + destruct (proj1 (E x) (or_intror I)) as [->|X]; [specialize (F1 x I); lia|exact X].
    + destruct (proj2 (E x) (or_intror I)) as [->|X]; [specialize (F2 x I); lia|exact X].
Qed.
Lemma seq_sorted n : forall a, StronglySorted lt (seq a n).
Proof. induction n as [|n IH]; intros a; constructor; [apply IH|]. apply Forall_forall. intros x I. apply in_seq in I. lia. Qed.
Lemma filter_sorted (p : nat -> bool) l : StronglySorted lt l -> StronglySorted lt (filter p l).
Proof.
  induction 1 as [|a l S IH F]; [constructor|]. cbn. destruct (p a); [|exact IH]. constructor; [exact IH|].
  apply Forall_forall. intros x I. apply filter_In in I. rewrite Forall_forall in F. apply F. apply I.
Qed.
Lemma step_sorted a c n : (0 <= a)%Z -> (0 < c)%Z -> forall s, StronglySorted lt (map (fun i => Z.to_nat (a + Z.of_nat i * c)) (seq s n)).
Proof.
  intros A C. induction n as [|n IH]; intros s; constructor; [apply IH|]. apply Forall_forall. intros x I.
  apply in_map_iff in I. destruct I as (i & <- & I). apply in_seq in I. apply Z2Nat.inj_lt; nia.
Qed.

(** where an index of a slice is, in a list of n elements *)
Definition place (n : nat) (z : Z) : Z := if Z.ltb z 0 then Z.max 0 (Z.of_nat n + z) else Z.min (Z.of_nat n) z.
(** the positions of a slice: from..to, every c-th *)
Definition slice_has (n : nat) (a b c : Z) (k : nat) : bool :=
  Z.leb (place n a) (Z.of_nat k) && Z.ltb (Z.of_nat k) (place n b) && Z.eqb (Z.modulo (Z.of_nat k - place n a) c) 0.

Lemma place_bound n z : (0 <= place n z <= Z.of_nat n)%Z.
Proof. unfold place. destruct (Z.ltb_spec z 0); lia. Qed.
Lemma slice_spec n a b c : (0 < c)%Z -> slice_pos n a b c = Ok (filter (slice_has n (match a with None => 0%Z | Some a => a end) b c) (seq 0 n)).
Proof.
  intros C. unfold slice_pos. replace (Z.eqb c 0) with false by (symmetry; apply Z.eqb_neq; lia).
  replace (Z.ltb 0 c) with true by (symmetry; apply Z.ltb_lt; lia).
  set (a' := match a with None => 0%Z | Some a => a end).
  replace (match a with None => 0%Z | Some z => adjust (Z.of_nat n) z 0 (Z.of_nat n) end) with (place n a').
  2:{ unfold a', place, adjust. destruct a as [z|]; [destruct (Z.ltb_spec z 0); lia|cbn; lia]. }
  replace (adjust (Z.of_nat n) b 0 (Z.of_nat n)) with (place n b) by (unfold place, adjust; destruct (Z.ltb_spec b 0); lia).
  pose proof (place_bound n a') as BA. pose proof (place_bound n b) as BB.
  unfold slice_has. set (pa := place n a') in *. set (pb := place n b) in *. clearbody pa pb a'. cbv zeta. f_equal.
  apply sorted_same; [apply step_sorted; lia|apply filter_sorted, seq_sorted|].
  intros x. rewrite in_map_iff, filter_In, in_seq, !andb_true_iff, Z.leb_le, Z.ltb_lt, Z.eqb_eq. split.
  - intros (i & <- & I). apply in_seq in I.
    assert (Z.of_nat i < (pb - pa + c - 1) / c)%Z by lia.
    assert ((pb - pa + c - 1) / c * c <= pb - pa + c - 1)%Z by (rewrite Z.mul_comm; apply Z.mul_div_le; lia).
    assert (Z.of_nat i * c <= ((pb - pa + c - 1) / c - 1) * c)%Z by (apply Z.mul_le_mono_nonneg_r; lia).
    assert (P : (0 <= Z.of_nat i * c)%Z) by nia.
    rewrite !Z2Nat.id by lia. repeat split; try lia.
    replace (pa + Z.of_nat i * c - pa)%Z with (Z.of_nat i * c)%Z by lia. apply Z.mod_mul. lia.
  - intros (X & (X1 & X2) & M). exists (Z.to_nat ((Z.of_nat x - pa) / c)).
    apply Z.mod_divide in M; [|lia]. destruct M as [q Q]. rewrite Q, Z.div_mul by lia.
    assert (0 <= q)%Z by nia. rewrite Z2Nat.id by lia. split; [lia|]. apply in_seq. split; [lia|].
    assert (q < (pb - pa + c - 1) / c)%Z.
    { assert (q + 1 <= (pb - pa + c - 1) / c)%Z; [|lia]. apply Z.div_le_lower_bound; [lia|]. nia. }
    lia.
Qed.
Lemma ints_all zs : ints (map PInt zs) = Some zs.
Proof. induction zs as [|z zs IH]; [reflexivity|]. cbn. rewrite IH. reflexivity. Qed.
Lemma ints_name args n : In (PName n) args -> ints args = None.
Proof. induction args as [|[m|z] args IH]; intros I; [destruct I|reflexivity|]. destruct I as [X|I]; [discriminate|]. cbn. rewrite IH by exact I. reflexivity. Qed.

(** ** C91: plots of values against SSE *)
(** No names: all of them, sorted.  Names: those, as given.  Integers: a slice of all
    the sorted names. *)
Theorem C91_all names : exists l, args2names names [] = Ok (map PName l) /\ Permutation l names /\ StronglySorted (fun a b => String.leb a b = true) l.
Proof.
  exists (ssort names). split; [reflexivity|]. split; [apply ssort_perm|].
  pose proof (ssort_sorted names) as S. apply Sorted_StronglySorted in S; [exact S|]. exact scompare_trans_le.
Qed.
Theorem C91_names names args n : In (PName n) args -> args2names names args = Ok args.
Proof. intros I. unfold args2names. rewrite (ints_name _ _ I). destruct args; [destruct I|reflexivity]. Qed.
Theorem C91_slice names zs a b c : zs = [b] /\ a = 0%Z /\ c = 1%Z \/ zs = [a; b] /\ c = 1%Z \/ zs = [a; b; c] -> (0 < c)%Z ->
  args2names names (map PInt zs) =
  Ok (map PName (map (fun k => nth k (ssort names) EmptyString) (filter (slice_has (length names) a b c) (seq 0 (length names))))).
Proof.
  intros H C.
  assert (E : slice_args (length names) zs = Ok (filter (slice_has (length names) a b c) (seq 0 (length names)))).
  { destruct H as [(-> & -> & ->)|[(-> & ->)| ->]]; cbn [slice_args].
    - apply (slice_spec _ None). lia.
    - apply (slice_spec _ (Some a)). lia.
    - apply (slice_spec _ (Some a)). lia. }
  unfold args2names. rewrite ints_all, E. cbn [bind]. rewrite map_map.
  destruct zs; [|reflexivity]. destruct H as [(X & _)|[(X & _)|X]]; discriminate.
Qed.
(** An integer among names is refused *)
Theorem C91_mixed names h s r args n z : In (PName n) args -> In (PInt z) args -> (forall m, In (PName m) args -> In m names) -> K h <> [] ->
  value_vs_SSE names h s r args = Raise ValueError.
Proof.
  intros I J A KH. unfold value_vs_SSE. rewrite (C91_names names args n I). cbn [bind].
  unfold selected. destruct (K h); [congruence|]. cbn [bind].
  enough (E : mapM (arg2k names) args = Raise ValueError) by (rewrite E; reflexivity).
  clear I n. revert J A. induction args as [|x args IH]; intros J A; [destruct J|]. destruct x as [m|z']; [|reflexivity].
  destruct J as [X|J]; [discriminate|]. cbn [mapM arg2k]. unfold name2k.
  destruct (index_of (String.eqb m) names) as [k|] eqn:E; cbn [bind]; [|reflexivity].
  rewrite IH; [reflexivity|exact J|]. intros; apply A; right; auto.
Qed.

Lemma args_again names ns : ns <> [] -> args2names names (map PName ns) = Ok (map PName ns).
Proof. destruct ns as [|n ns]; [congruence|]. intros _. apply (C91_names names _ n). left. reflexivity. Qed.
Lemma mapM_cols names ns : NoDup names -> (forall n, In n ns -> In n names) ->
  exists ks, mapM (arg2k names) (map PName ns) = Ok (map Z.of_nat ks) /\ length ks = length ns /\
    forall k n, nth_error ns k = Some n -> exists i, nth_error ks k = Some (S i) /\ nth_error names i = Some n.
Proof.
  intros ND. induction ns as [|n ns IH]; intros A.
  - exists []. repeat split. intros [|k] n E; discriminate.
  - destruct IH as (ks & E & L & P); [intros; apply A; right; auto|].
    destruct (In_nth_error names n (A n (or_introl eq_refl))) as [i I].
    exists (S i :: ks). split; [|split].
    + cbn [map mapM arg2k]. unfold name2k. rewrite (index_of_nodup _ _ _ ND I). cbn [bind]. rewrite E. cbn [bind map]. repeat f_equal. lia.
    + cbn. auto.
    + intros [|k] m N; [|exact (P k m N)]. cbn in N. injection N as ->. exists i. auto.
Qed.
(** value_vs_SSE gives the SSEs of the individuals selected, and then for each name
    that parameter's values of the same individuals in the same order *)
Theorem C91_values names h s r ns rows : NoDup names -> (forall n, In n ns -> In n names) -> ns <> [] -> selected h s r = Ok rows ->
  exists cols, value_vs_SSE names h s r (map PName ns) = Ok (map (h_sse h) rows :: cols) /\ length cols = length ns /\
    forall k n, nth_error ns k = Some n -> exists i, nth_error names i = Some n /\
      nth_error cols k = Some (map (fun row => nth (S i) (X h row) fnan) rows).
Proof.
  intros ND A NE SE. destruct (mapM_cols names ns ND A) as (ks & E & L & P).
  exists (map (fun k => column h rows k) ks). split; [|split].
  - unfold value_vs_SSE. rewrite (args_again names ns NE). cbn [bind]. rewrite SE. cbn [bind]. rewrite E. cbn [bind]. f_equal. f_equal.
    + unfold column. apply map_ext. intros row. unfold h_sse. destruct (X h row); reflexivity.
    + rewrite map_map. apply map_ext. intros k. rewrite Nat2Z.id. reflexivity.
  - rewrite map_length. exact L.
  - intros k n N. destruct (P k n N) as (i & I & J). exists i. split; [exact J|]. rewrite nth_error_map, I. reflexivity.
Qed.
(** plot makes one subplot for each name: with the name as its title, and its values
    against the SSEs, of the population's individuals and, unless inPop is set, of
    former and of other individuals *)
Theorem C91_plot names h inPop r args ns : NoDup names -> K h <> [] -> args2names names args = Ok (map PName ns) -> ns <> [] ->
  (forall n, In n ns -> In n names) ->
  exists subs, plot names h inPop r args = Ok subs /\ length subs = length ns /\
    forall k n, nth_error ns k = Some n -> exists sub i, nth_error subs k = Some sub /\ nth_error names i = Some n /\ title sub = PName n /\
      Forall2 (fun s ser => exists rows, selected h s r = Ok rows /\ fst ser = map (h_sse h) rows /\ snd ser = map (fun row => nth (S i) (X h row) fnan) rows)
        (if inPop then [SInPop] else [SInPop; SNotInPop; SNeverInPop]) (series sub).
Proof.
  intros ND KH AE NE A. unfold plot. rewrite AE. cbn [bind].
  assert (SEL : forall s, exists rows, selected h s r = Ok rows) by (intros s; unfold selected; destruct (K h); [congruence|eauto]).
  assert (V : forall s, exists rows cols, selected h s r = Ok rows /\ value_vs_SSE names h s r (map PName ns) = Ok (map (h_sse h) rows :: cols) /\ length cols = length ns /\
    forall k n, nth_error ns k = Some n -> exists i, nth_error names i = Some n /\ nth_error cols k = Some (map (fun row => nth (S i) (X h row) fnan) rows)).
  { intros s. destruct (SEL s) as [rows E]. destruct (C91_values names h s r ns rows ND A NE E) as (cols & ?). exists rows, cols. tauto. }
  assert (DO : forall xys, exists subs, do_subplots (map PName ns) xys (seq 0 (length ns)) = Ok subs /\ length subs = length ns /\
    forall k n, nth_error ns k = Some n -> nth_error subs k = Some (mkSub (PName n) (map (fun xy => (nth 0 xy [], nth (S k) xy [])) xys))).
  { intros xys.
    assert (G : forall m a, a + m = length ns -> exists subs, do_subplots (map PName ns) xys (seq a m) = Ok subs /\ length subs = m /\
      forall k n, k < m -> nth_error ns (a + k) = Some n -> nth_error subs k = Some (mkSub (PName n) (map (fun xy => (nth 0 xy [], nth (S (a + k)) xy [])) xys))).
    { induction m as [|m IH]; intros a L; [exists []; repeat split; intros; lia|]. destruct (IH (S a)) as (subs & E & LS & P); [lia|].
      cbn [seq do_subplots]. destruct (nth_error ns a) as [n|] eqn:Ea; [|apply nth_error_None in Ea; lia].
      rewrite nth_error_map, Ea. cbn [option_map]. rewrite E. cbn [bind]. eexists. split; [reflexivity|]. split; [cbn; auto|].
      intros [|k] n' Lk N; [rewrite Nat.add_0_r in *; cbn; congruence|]. cbn [nth_error]. rewrite (P k n') by (try lia; rewrite <- N; f_equal; lia).
      replace (S a + k) with (a + S k) by lia. reflexivity. }
    destruct (G (length ns) 0 eq_refl) as (subs & E & L & P). exists subs. split; [exact E|]. split; [exact L|]. intros k n N.
    apply P; [apply nth_error_Some; congruence|exact N]. }
  destruct (V SInPop) as (rp & cp & Sp & -> & Lp & Pp). cbn [bind]. replace (length (map (h_sse h) rp :: cp) - 1) with (length ns) by (cbn [length]; lia).
  assert (ONE : forall rows cols k n i, nth_error names i = Some n -> nth_error cols k = Some (map (fun row => nth (S i) (X h row) fnan) rows) ->
     nth (S k) (map (h_sse h) rows :: cols) [] = map (fun row => nth (S i) (X h row) fnan) rows).
  { intros rows cols k n i _ E. cbn [nth]. apply nth_error_nth. exact E. }
  destruct inPop; cbn [bind].
  - destruct (DO [map (h_sse h) rp :: cp]) as (subs & E & L & P). exists subs. split; [exact E|]. split; [exact L|].
    intros k n N. destruct (Pp k n N) as (i & I & C). exists (mkSub (PName n) [(map (h_sse h) rp, nth (S k) (map (h_sse h) rp :: cp) [])]), i.
    split; [exact (P k n N)|]. split; [exact I|]. split; [reflexivity|]. constructor; [|constructor].
    exists rp. split; [exact Sp|]. split; [reflexivity|]. cbn [snd]. eapply ONE; eauto.
  - destruct (V SNotInPop) as (rn & cn & Sn & -> & Ln & Pn). cbn [bind].
    destruct (V SNeverInPop) as (rr & cr & Sr & -> & Lr & Pr). cbn [bind].
    destruct (DO [map (h_sse h) rp :: cp; map (h_sse h) rn :: cn; map (h_sse h) rr :: cr]) as (subs & E & L & P). exists subs. split; [exact E|]. split; [exact L|].
    intros k n N. destruct (Pp k n N) as (i & I & C). destruct (Pn k n N) as (i' & I' & C'). destruct (Pr k n N) as (i'' & I'' & C'').
    assert (U : forall j, nth_error names j = Some n -> j = i).
    { intros j J. apply (proj1 (NoDup_nth_error names) ND); [apply nth_error_Some|]; congruence. }
    rewrite (U i' I') in *. rewrite (U i'' I'') in *.
    eexists; exists i. split; [exact (P k n N)|]. split; [exact I|]. split; [reflexivity|].
    constructor; [|constructor; [|constructor; [|constructor]]].
    + exists rp. split; [exact Sp|]. split; [reflexivity|]. cbn [snd]. eapply ONE; eauto.
    + exists rn. split; [exact Sn|]. split; [reflexivity|]. cbn [snd]. eapply ONE; eauto.
    + exists rr. split; [exact Sr|]. split; [reflexivity|]. cbn [snd]. eapply ONE; eauto.
Qed.
(** A slice without any names is not an empty plot: an exception is raised, the data of
    all parameters having been looked up with no titles for them *)
Theorem C91_empty_slice_refuted : ~ (forall names h inPop r args, NoDup names -> K h <> [] -> args2names names args = Ok [] ->
  plot names h inPop r args = Ok []).
Proof.
  intros H. specialize (H ["a"%string] (mkHist 1 4 1 (fun _ => [fone; fone]) [0] [0] [] [] cpf_clear false) true fone [PInt 1; PInt 1]).
  assert (E : plot ["a"%string] (mkHist 1 4 1 (fun _ => [fone; fone]) [0] [0] [] [] cpf_clear false) true fone [PInt 1; PInt 1] = Raise IndexError).
  { vm_compute. reflexivity. }
  rewrite E in H. assert (X : Raise IndexError = Ok (@nil subplot)); [|discriminate]. apply H; [repeat constructor; intros []|discriminate|reflexivity].
Qed.
Definition vs_hist : hist :=
  mkHist 2 8 3 (fun r => [fofZ (Z.of_nat r + 1); fofZ (10 + Z.of_nat r); fofZ (20 + Z.of_nat r)]) [0; 1; 2] [0] [2] [] cpf_clear false.
Example C91_nonvacuous :
  args2names ["b"; "a"; "c"]%string [] = Ok [PName "a"; PName "b"; PName "c"]%string /\
  args2names ["b"; "a"; "c"]%string [PInt (-2); PInt 9] = Ok [PName "b"; PName "c"]%string /\
  args2names ["b"; "a"; "c"]%string [PInt 2; PInt (-9); PInt (-1)] = Ok [PName "c"; PName "b"; PName "a"]%string /\
  (NoDup ["b"; "a"]%string /\ K vs_hist <> [] /\ args2names ["b"; "a"]%string [PName "a"%string] = Ok (map PName ["a"%string])) /\
  option_map (fun l => map (fun s => map (fun xy => (length (fst xy), length (snd xy))) (series s)) l)
    (match plot ["b"; "a"]%string vs_hist false (fofZ 1000) [] with Ok l => Some l | _ => None end) = Some [[(1, 1); (1, 1); (1, 1)]; [(1, 1); (1, 1); (1, 1)]] /\
  value_vs_SSE ["b"; "a"]%string vs_hist SAny (fofZ 1000) [PName "a"%string; PInt 0] = Raise ValueError.
Proof.
  repeat split; try (vm_compute; reflexivity); try discriminate. repeat constructor; cbn; intuition discriminate.
Qed.

Print Assumptions C91_all.
Print Assumptions C91_names.
Print Assumptions C91_slice.
Print Assumptions C91_mixed.
Print Assumptions C91_values.
Print Assumptions C91_plot.
Print Assumptions C91_empty_slice_refuted.

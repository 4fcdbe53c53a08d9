(** * Properties C50, C51: ade/specs.py *)
From Coq Require Import Ascii String List Bool Arith ZArith NArith Lia.
From Verif Require Import Py SpecsModel SpecsProofs.
Import ListNotations.
Local Open Scope nat_scope.

(** the calls of dict_add between dict_start and dict_done *)
Fixpoint s_dadds (s : specs) (es : list (val * list key)) : res specs :=
  match es with [] => Ok s | (v, ks) :: es => bind (s_dadd s v ks) (fun s => s_dadds s es) end.
Lemma s_dadds_eq : forall es A n d, s_dadds (mkSpecs A (Some (n, d))) es = bind (ds_adds d es) (fun d => Ok (mkSpecs A (Some (n, d)))).
Proof.
  induction es as [|[v ks] es IH]; intros A n d; cbn [s_dadds ds_adds bind]; auto. cbn [s_dadd ds attrs].
  destruct (ds_add d v ks); cbn [bind]; auto.
Qed.

(** C50: a dict defined by dict_start, any number of dict_add calls whose key
    paths are not empty and none of which is a proper prefix of another, and
    dict_done: no call raises; afterwards get with the name and a path returns
    the value last added under exactly that path, and an empty dict for a path
    that is neither a prefix nor an extension of one that was added; for a proper
    prefix of an added path it returns a dict.  Other attributes are unchanged. *)
Theorem C50_stored : forall s name es, prefix_free es -> exists s1 s',
  s_dadds (s_start s (KStr name)) es = Ok s1 /\ s_done s1 = Ok s' /\
  (forall es1 v ks es2, es = es1 ++ (v, ks) :: es2 -> (forall w, ~ In (w, ks) es2) -> s_get s' (KStr name :: ks) = Ok v) /\
  (forall ks, ks <> [] -> (forall v ks', In (v, ks') es -> ~ comparable ks' ks) -> s_get s' (KStr name :: ks) = Ok (Dct [])) /\
  (forall v ks p r, In (v, ks) es -> ks = p ++ r -> r <> [] -> exists d, s_get s' (KStr name :: p) = Ok (Dct d)) /\
  (forall n ks, n <> name -> s_get s' (KStr n :: ks) = s_get s (KStr n :: ks)).
Proof.
  intros s name es PF. destruct (ds_adds_spec es PF) as (d & E & G1 & G2 & G3 & G4).
  exists (mkSpecs (attrs s) (Some (KStr name, d))), (mkSpecs (aset str_eqb (attrs s) name (Dct d)) None).
  unfold s_start. rewrite s_dadds_eq, E. split; [reflexivity|]. split; [reflexivity|].
  assert (Hg : forall ks, ks <> [] -> s_get (mkSpecs (aset str_eqb (attrs s) name (Dct d)) None) (KStr name :: ks) = get_in d ks).
  { intros ks N. unfold s_get. cbn [attrs]. rewrite (aget_aset _ _ str_eqb_spec). destruct (str_eqb_spec name name); [|congruence].
    destruct ks; [congruence|reflexivity]. }
  split; [|split; [|split]].
  - intros es1 v ks es2 Ee Hn. rewrite Hg; [eapply G1; eauto|]. destruct PF as [PF _]. eapply (PF v). rewrite Ee, in_app_iff. simpl; auto.
  - intros ks N Hc. rewrite Hg by auto. auto.
  - intros v ks p r I Ek Nr. destruct p as [|k p].
    + exists d. unfold s_get. cbn [attrs]. rewrite (aget_aset _ _ str_eqb_spec). destruct (str_eqb_spec name name); [reflexivity|congruence].
    + rewrite Hg by discriminate. eapply G4; eauto. discriminate.
  - intros n ks N. unfold s_get. cbn [attrs]. rewrite (aget_aset _ _ str_eqb_spec). destruct (str_eqb_spec n name); [congruence|reflexivity].
Qed.

Definition st (x : String.string) : str := list_ascii_of_string x.
Arguments st x%string.
Definition ex_es : list (val * list key) :=
  [(Leaf (LOne (SNum (st "1"))), [KStr (st "a"); KInt 1]);
   (Leaf (LSeq [SNum (st "2"); SNone]), [KStr (st "b")]);
   (Leaf (LOne (SBool true)), [KStr (st "a"); KInt 2]);
   (Leaf (LOne (SNum (st "3"))), [KStr (st "a"); KInt 1])].
Example C50_example : prefix_free ex_es /\
  s_get (match s_dadds (s_start (mkSpecs [] None) (KStr (st "foo"))) ex_es with
         | Ok s => match s_done s with Ok s => s | _ => mkSpecs [] None end | _ => mkSpecs [] None end)
        [KStr (st "foo"); KStr (st "a"); KInt 1] = Ok (Leaf (LOne (SNum (st "3")))).
Proof.
  split; [|vm_compute; reflexivity]. split.
  - intros v ks H. repeat (destruct H as [H|H]; [injection H as <- <-; discriminate|]). destruct H.
  - intros v ks v' ks' H H' [r Hr].
    repeat (destruct H as [H|H]; [injection H as <- <-;
      repeat (destruct H' as [H'|H']; [injection H' as <- <-; cbn in Hr; try discriminate; reflexivity|]); destruct H'|]).
    destruct H.
Qed.

(** C50 does not extend to key paths beyond a stored one: get ignores the
    surplus keys and returns the stored value instead of an empty dict *)
Theorem C50_surplus_keys_refuted : forall d name A l ks r, ks <> [] -> get_in d ks = Ok (Leaf l) ->
  aget str_eqb A name = Some (Dct d) -> s_get (mkSpecs A None) (KStr name :: ks ++ r) = Ok (Leaf l).
Proof.
  intros d name A l ks r N G E. unfold s_get. cbn [attrs]. rewrite E.
  assert (H : forall ks d, ks <> [] -> get_in d ks = Ok (Leaf l) -> get_in d (ks ++ r) = Ok (Leaf l)).
  { clear. induction ks as [|k ks IH]; intros d N G; [congruence|]. cbn [get_in app] in *.
    destruct (dget d k) as [[x|s]|]; auto; try discriminate. destruct ks as [|k2 ks]; [discriminate|].
    cbn [app]. apply IH; auto. discriminate. }
  specialize (H ks d N G). destruct ks as [|k ks]; [congruence|]. exact H.
Qed.
Example C50_surplus_example :
  s_get (mkSpecs [(st "foo", Dct [(KStr (st "b"), Leaf (LOne SNone))])] None) [KStr (st "foo"); KStr (st "b"); KStr (st "c")]
  = Ok (Leaf (LOne SNone)).
Proof. vm_compute. reflexivity. Qed.

(** Without the condition on prefixes stacking may raise: a value under "a"
    and then one under "a:b" *)
Theorem C50_prefix_refuted : exists es, (forall v ks, In (v, ks) es -> ks <> []) /\
  forall s name, s_dadds (s_start s (KStr name)) es = Raise TypeError.
Proof.
  exists [(Leaf (LOne SNone), [KStr (st "a")]); (Leaf (LOne SNone), [KStr (st "a"); KStr (st "b")])].
  split; [|reflexivity]. intros v ks [H|[H|[]]]; injection H as <- <-; discriminate.
Qed.

(** ** C51 *)
(** one value is stored as it is, none or several as a list *)
Definition line_value (v : list scalar) (l : leaf) : Prop :=
  (forall x, v = [x] -> l = LOne x) /\ (length v <> 1 -> l = LSeq v).
Lemma line_value_leaf : forall v, line_value v (leaf_of v).
Proof. intros [|x [|y v]]; split; cbn; intros; try reflexivity; try congruence; lia. Qed.
(** what get returns for an item of a document *)
Definition item_result (s : specs) (i : item) : Prop :=
  match i with
  | IAttr n v => exists l, line_value v l /\ forall ks, s_get s (KStr n :: ks) = Ok (Leaf l)
  | IDict n es =>
    (forall es1 v ks es2, es = es1 ++ (v, ks) :: es2 -> (forall w, ~ In (w, ks) es2) ->
       exists l, line_value v l /\ s_get s (KStr n :: ks) = Ok (Leaf l)) /\
    (forall ks, ks <> [] -> (forall v ks', In (v, ks') es -> ~ comparable ks' ks) -> s_get s (KStr n :: ks) = Ok (Dct []))
  end.
(** dicts have usable key paths *)
Definition paths_ok (i : item) : Prop := match i with IAttr _ _ => True | IDict _ es => prefix_free (entries es) end.

Lemma paths_ok_val : forall i, paths_ok i -> item_val i <> None.
Proof.
  intros [n v|n es]; cbn [paths_ok item_val]; [discriminate|]. intros PF.
  destruct (ds_adds_spec _ PF) as (d & E & _). rewrite E. discriminate.
Qed.
Lemma item_result_ok : forall s i, paths_ok i -> aget str_eqb (attrs s) (item_name i) = item_val i -> item_result s i.
Proof.
  intros s [n v|n es] P E; cbn [item_result item_name item_val] in *.
  - exists (leaf_of v). split; [apply line_value_leaf|]. intros ks. unfold s_get. rewrite E. reflexivity.
  - cbn [paths_ok] in P. destruct (ds_adds_spec _ P) as (d & Ed & G1 & G2 & _). rewrite Ed in E.
    assert (Hg : forall ks, ks <> [] -> s_get s (KStr n :: ks) = get_in d ks).
    { intros ks N. unfold s_get. rewrite E. destruct ks; [congruence|reflexivity]. }
    split.
    + intros es1 v ks es2 Ee Hn. exists (leaf_of v). split; [apply line_value_leaf|]. subst es. unfold entries in *. rewrite map_app in *. cbn [map fst snd] in *.
      rewrite Hg; [|apply (proj1 P (Leaf (leaf_of v))); rewrite in_app_iff; simpl; auto].
      eapply G1; [reflexivity|]. intros w K. apply in_map_iff in K. destruct K as ([v' ks'] & [= <- <-] & K). apply (Hn v'). exact K.
    + intros ks N Hc. rewrite Hg by auto. apply G2; auto. intros v ks' K. unfold entries in K. apply in_map_iff in K.
      destruct K as ([v' k'] & [= <- <-] & K). eapply Hc; eauto.
Qed.

(** C51: a file whose lines, blank and comment lines apart, render a list of
    attributes and dicts (see [renders]: names, optional equals sign, values with
    trailing commas, trailing comment; dicts between lines of hyphens) is read
    without error.  Each name has exactly the value of its last definition, and
    names that were not defined are not attributes. *)
Theorem C51_read : forall doc lines, lines <> [] -> (forall i, In i doc -> paths_ok i) ->
  renders_doc doc (filter (fun l => negb (noise l)) lines) ->
  exists s, read lines = Ok (s, length lines) /\
  (forall doc1 i doc2, doc = doc1 ++ i :: doc2 -> (forall j, In j doc2 -> item_name j <> item_name i) -> item_result s i) /\
  (forall n, (forall i, In i doc -> item_name i <> n) -> aget str_eqb (attrs s) n = None).
Proof.
  intros doc lines N P R.
  assert (V : forall i, In i doc -> item_val i <> None) by (intros; apply paths_ok_val; auto).
  exists (mkSpecs (fold_left set_item doc []) None). split; [|split].
  - unfold read. rewrite read_lines_noise, (read_doc doc _ []) by auto. cbn [bind sp]. destruct lines; [congruence|reflexivity].
  - intros doc1 i doc2 E Hl. apply item_result_ok; [apply P; rewrite E, in_app_iff; simpl; auto|].
    cbn [attrs]. eapply (attrs_last doc [] (item_name i)); eauto.
  - intros n Hn. cbn [attrs]. rewrite (proj2 (attrs_last doc [] n V) Hn). reflexivity.
Qed.

(** blank and comment lines never matter *)
Theorem C51_noise : forall lines lines', lines <> [] -> lines' <> [] ->
  filter (fun l => negb (noise l)) lines = filter (fun l => negb (noise l)) lines' ->
  match read lines, read lines' with
  | Ok (s, _), Ok (s', _) => s = s'
  | Raise e, Raise e' => e = e'
  | _, _ => False
  end.
Proof.
  intros lines lines' N N' E. unfold read. rewrite read_lines_noise, (read_lines_noise lines'), E.
  destruct (read_lines _ _); cbn [bind]; auto. destruct lines, lines'; congruence.
Qed.

(** whitespace around and between words is free: splitting a line laid out with
    any whitespace gives its words *)
Theorem C51_layout : forall items w0, ws_str w0 -> (forall t w, In (t, w) items -> word t /\ ws_str w) ->
  (forall a t w b, items = a ++ (t, w) :: b -> b <> [] -> w <> []) ->
  split_ws [] (strip (w0 ++ lay items)) = map fst items.
Proof. intros. rewrite split_strip. now apply split_lay. Qed.

(** values: none, true and false in any case, numbers by the grammar [numeral],
    everything else as lower-case text *)
Theorem C51_values : forall t x, parse_value t = x <-> shows x t.
Proof. exact parse_value_spec. Qed.

(** a line of hyphens after complete definitions, without a name before it, is
    rejected *)
Theorem C51_hyphens_rejected : forall doc lines l rest, (forall i, In i doc -> paths_ok i) ->
  renders_doc doc (filter (fun l => negb (noise l)) lines) -> dash_line l ->
  read (lines ++ l :: rest) = Raise ValueError.
Proof.
  intros doc lines l rest P R D. unfold read. rewrite read_lines_app.
  rewrite read_lines_noise, (read_doc doc _ []) by (auto; intros; apply paths_ok_val; auto). cbn [bind read_lines].
  rewrite read_dash by auto. reflexivity.
Qed.

(** a name that is not defined gives an empty dict, whatever keys follow *)
Theorem C51_missing : forall s n ks, (forall v, ~ In (n, v) (attrs s)) -> s_get s (KStr n :: ks) = Ok (Dct []).
Proof.
  intros s n ks H. assert (A : aget str_eqb (attrs s) n = None).
  { induction (attrs s) as [|[n' v] l IH]; cbn [aget]; auto. destruct (str_eqb_spec n n') as [<-|]; [destruct (H v); now left|]. apply IH. intros w I. apply (H w). now right. }
  unfold s_get. rewrite A. destruct ks; reflexivity.
Qed.
(** white space: tab, line feed, vertical tab, form feed, carriage return, the four
    separators and blank *)
Theorem C51_white : forall c, is_ws c = true <-> In (nat_of_ascii c) [9; 10; 11; 12; 13; 28; 29; 30; 31; 32].
Proof. intros [[] [] [] [] [] [] [] []]; vm_compute; split; intros H; try discriminate H; auto 20; repeat (destruct H as [H|H]; [discriminate H|]); destruct H. Qed.
(** lower case: exactly the letters A to Z change *)
Theorem C51_lower : forall c, lower_c c = match c with
  | "A" => "a" | "B" => "b" | "C" => "c" | "D" => "d" | "E" => "e" | "F" => "f" | "G" => "g" | "H" => "h" | "I" => "i" | "J" => "j" | "K" => "k" | "L" => "l" | "M" => "m"
  | "N" => "n" | "O" => "o" | "P" => "p" | "Q" => "q" | "R" => "r" | "S" => "s" | "T" => "t" | "U" => "u" | "V" => "v" | "W" => "w" | "X" => "x" | "Y" => "y" | "Z" => "z"
  | c => c end%char.
Proof. intros [[] [] [] [] [] [] [] []]; vm_compute; reflexivity. Qed.
(** the words with a meaning of their own *)
Theorem C51_words : forall t, (parse_value t = SNone <-> lower t = st "none") /\ (parse_value t = SBool true <-> lower t = st "true") /\ (parse_value t = SBool false <-> lower t = st "false").
Proof. intros t. rewrite !C51_values. repeat split; intros H; exact H. Qed.
(** commas after a value do not matter, whatever their number *)
Theorem C51_commas : forall t n ts, (forall a, t <> a ++ [","%char]) -> startswith [ch_hash] (t ++ repeat ","%char n) = false ->
  parse_seq ((t ++ repeat ","%char n) :: ts) = parse_value t :: parse_seq ts.
Proof. intros t n ts N H. cbn [parse_seq]. rewrite H. f_equal. f_equal. now apply (rstripc_token t n). Qed.
(** a number is no name for an attribute *)
Theorem C51_number_rejected : forall doc lines l rest z v, (forall i, In i doc -> paths_ok i) ->
  renders_doc doc (filter (fun l => negb (noise l)) lines) -> entry_line [KInt z] v l ->
  read (lines ++ l :: rest) = Raise TypeError.
Proof.
  intros doc lines l rest z v P R (first & tail & E & O & Pn & T). unfold read. rewrite read_lines_app.
  rewrite read_lines_noise, (read_doc doc _ []) by (auto; intros; apply paths_ok_val; auto). cbn [bind read_lines].
  rewrite (read_line_ordinary _ l first tail E O), (parse_name_spec _ _ Pn). cbn [dictDef]. cbv zeta.
  destruct (tail_values _ _ T) as (t0 & ts & -> & _). reflexivity.
Qed.
(** nor for a dict: zero is rejected at the first line of hyphens, any other only at the
    second one, after all entries have been read *)
Theorem C51_number_dict_rejected : forall doc lines l l2 ls l3 rest z first es, (forall i, In i doc -> paths_ok i) ->
  renders_doc doc (filter (fun l => negb (noise l)) lines) -> split_ws [] l = [first] -> ordinary first -> path_shown [KInt z] first ->
  dash_line l2 -> dash_line l3 -> Forall2 (fun e l => entry_line (snd e) (fst e) l) es ls -> prefix_free (entries es) ->
  read (lines ++ [l]) <> Raise ValueError /\
  read (lines ++ [l; l2] ++ ls ++ l3 :: rest) = Raise (if (z =? 0)%N then ValueError else TypeError) /\
  (z <> 0%N -> exists s, read (lines ++ [l; l2] ++ ls) = Ok s).
Proof.
  intros doc lines l l2 ls l3 rest z first es P R E O Pn D2 D3 F PF.
  assert (RD : forall more, read_lines (mkRd false None (mkSpecs [] None)) (lines ++ l :: more) =
    read_lines (mkRd false (Some (KInt z)) (mkSpecs (fold_left set_item doc []) None)) more).
  { intros more. rewrite read_lines_app. rewrite read_lines_noise, (read_doc doc _ []) by (auto; intros; apply paths_ok_val; auto). cbn [bind read_lines].
    rewrite (read_line_ordinary _ l first [] E O), (parse_name_spec _ _ Pn). reflexivity. }
  assert (NE : forall more, exists a b, lines ++ l :: more = a :: b) by (intros more; destruct lines; cbn; eauto).
  destruct (ds_adds_spec _ PF) as (d & Ed & _). unfold read. split; [|split].
  - rewrite RD. cbn [read_lines bind]. destruct (NE []) as (a & b & ->). discriminate.
  - cbn [app]. rewrite RD. cbn [read_lines]. rewrite read_dash by auto. cbn [dictDef dictName truthy_key sp]. destruct (N.eqb_spec z 0) as [->|NZ]; [reflexivity|].
    cbn [negb bind]. unfold s_start. cbn [attrs]. rewrite read_lines_app, (read_entries es) by auto. rewrite Ed. cbn [bind read_lines]. rewrite read_dash by auto. reflexivity.
  - intros NZ. cbn [app]. rewrite RD. cbn [read_lines]. rewrite read_dash by auto. cbn [dictDef dictName truthy_key sp]. destruct (N.eqb_spec z 0) as [->|_]; [congruence|].
    cbn [negb bind]. unfold s_start. cbn [attrs]. rewrite (read_entries es) by auto. rewrite Ed. cbn [bind]. destruct (NE (l2 :: ls)) as (a & b & ->). eauto.
Qed.

(** A dict that is not closed by a second line of hyphens is dropped without an
    error; its entries are not among the attributes *)
Theorem C51_unterminated_refuted : forall n es l1 l2 ls, name_line n l1 -> dash_line l2 ->
  Forall2 (fun e l => entry_line (snd e) (fst e) l) es ls -> prefix_free (entries es) ->
  exists s, read (l1 :: l2 :: ls) = Ok (s, S (S (length ls))) /\ attrs s = [].
Proof.
  intros n es l1 l2 ls H1 H2 H3 PF. destruct (ds_adds_spec _ PF) as (d & E & _).
  exists (mkSpecs [] (Some (KStr n, d))). split; [|reflexivity]. unfold read. cbn [read_lines].
  rewrite (read_name _ n) by auto. cbn [bind]. rewrite read_dash by auto. cbn [dictDef dictName sp].
  destruct H1 as (_ & _ & _ & _ & Nn). destruct n as [|c n]; [congruence|]. cbn [truthy_key bind]. unfold s_start. cbn [attrs].
  rewrite (read_entries es) by auto. rewrite E. reflexivity.
Qed.

(** A name on a line of its own not followed by hyphens is dropped as well *)
Theorem C51_lone_name_refuted : forall n l, name_line n l -> exists s, read [l] = Ok (s, 1) /\ attrs s = [].
Proof.
  intros n l H. exists (mkSpecs [] None). split; [|reflexivity]. unfold read. cbn [read_lines].
  rewrite (read_name _ n) by auto. reflexivity.
Qed.

(** An empty file raises UnboundLocalError (the line counter is never set) *)
Theorem C51_empty_file_refuted : read [] = Raise UnboundLocalError.
Proof. reflexivity. Qed.

(** ** a concrete document *)
Definition doc1 : list item :=
  [IAttr (st "alpha") [SNum (st "1.5e-3")];
   IDict (st "foo") [([SNum (st "1"); SNone], [KStr (st "x"); KInt 12]); ([SBool true], [KStr (st "y")])];
   IAttr (st "names") [SStr (st "first"); SStr (st "second")]].
Definition lines1 : list str :=
  [st "# A comment"; st "  alpha =  1.5E-3   # trailing"; st ""; st "foo"; st "-----";
   st "'x:12'  1, None"; st "  # in between"; st "y = TRUE"; st "----"; st "names First, second,,"].

Lemma shows_by : forall x t, parse_value t = x -> shows x t.
Proof. intros. now apply parse_value_spec. Qed.
Lemma vt_by : forall x core n, (forall a, core <> a ++ [ch_comma]) -> startswith [ch_hash] (core ++ repeat ch_comma n) = false ->
  parse_value core = x -> value_token x (core ++ repeat ch_comma n).
Proof. intros x core n H1 H2 H3. exists core, n. repeat split; auto. now apply shows_by. Qed.
Lemma no_end : forall b c, c <> ch_comma -> forall a, b ++ [c] <> a ++ [ch_comma].
Proof. intros b c N a H. apply app_inj_tail in H. destruct H. congruence. Qed.
Lemma notdig : forall t, isdigit t = false -> ~ all_digits t.
Proof.
  intros t H [N F]. destruct t; [congruence|]. unfold isdigit in H. rewrite (proj2 (forallb_forall _ _)) in H; [discriminate|].
  now rewrite Forall_forall in F.
Qed.
Lemma ks_str : forall t, forallb (fun c => negb (Ascii.eqb c ch_colon) && negb (Ascii.eqb c ch_quote) && negb (is_ws c)) t = true ->
  isdigit t = false -> key_shown (KStr t) t.
Proof.
  intros t H D. split.
  - intros c K. rewrite forallb_forall in H. specialize (H c K). destruct (Ascii.eqb_spec c ch_colon), (Ascii.eqb_spec c ch_quote), (is_ws c); cbn in H; try discriminate; auto.
  - split; auto. now apply notdig.
Qed.

Example C51_example : lines1 <> [] /\ (forall i, In i doc1 -> paths_ok i) /\
  renders_doc doc1 (filter (fun l => negb (noise l)) lines1) /\
  exists s, read lines1 = Ok (s, 10) /\ s_get s [KStr (st "foo"); KStr (st "x"); KInt 12] = Ok (Leaf (LSeq [SNum (st "1"); SNone])).
Proof.
  split; [discriminate|]. split; [|split; [|eexists; split; vm_compute; reflexivity]].
  - intros i [<-|[<-|[<-|[]]]]; cbn [paths_ok]; auto. split.
    + intros v ks [H|[H|[]]]; injection H as <- <-; discriminate.
    + intros v ks v' ks' [H|[H|[]]] [H'|[H'|[]]]; injection H as <- <-; injection H' as <- <-; intros [r Hr]; cbn in Hr; try discriminate; reflexivity.
  - assert (E : filter (fun l => negb (noise l)) lines1 =
      [st "  alpha =  1.5E-3   # trailing"] ++ [st "foo"; st "-----"; st "'x:12'  1, None"; st "y = TRUE"; st "----"] ++ [st "names First, second,,"] ++ [])
      by (vm_compute; reflexivity).
    rewrite E. constructor; [|constructor; [|constructor; [|constructor]]].
    + exists (st "  alpha =  1.5E-3   # trailing"). split; [reflexivity|]. exists (st "alpha"), [st "="; st "1.5E-3"; st "#"; st "trailing"].
      split; [vm_compute; reflexivity|]. split; [split; vm_compute; reflexivity|]. split.
      * exists [st "alpha"]. split; [|split; [discriminate|vm_compute; reflexivity]]. constructor; [|constructor]. apply ks_str; vm_compute; reflexivity.
      * exists true, [st "1.5E-3"], [st "#"; st "trailing"]. split; [reflexivity|]. split; [discriminate|]. split; [discriminate|].
        split; [|vm_compute; reflexivity]. constructor; [|constructor]. apply (vt_by _ (st "1.5E-3") 0); [apply (no_end (st "1.5E-") "3"%char); discriminate|vm_compute; reflexivity..].
    + exists (st "foo"), (st "-----"), [st "'x:12'  1, None"; st "y = TRUE"], (st "----"). split; [reflexivity|].
      split; [|split; [vm_compute; reflexivity|split; [vm_compute; reflexivity|]]].
      * exists (st "foo"). split; [vm_compute; reflexivity|]. split; [split; vm_compute; reflexivity|]. split; [|discriminate].
        exists [st "foo"]. split; [|split; [discriminate|vm_compute; reflexivity]]. constructor; [|constructor]. apply ks_str; vm_compute; reflexivity.
      * constructor; [|constructor; [|constructor]]; cbn [fst snd].
        -- exists (st "'x:12'"), [st "1,"; st "None"]. split; [vm_compute; reflexivity|]. split; [split; vm_compute; reflexivity|]. split.
           ++ exists [st "x"; st "12"]. split; [|split; [discriminate|vm_compute; reflexivity]]. constructor; [apply ks_str; vm_compute; reflexivity|].
              constructor; [|constructor]. split.
              ** intros c [<-|[<-|[]]]; repeat split; try discriminate.
              ** split; [|vm_compute; reflexivity]. split; [discriminate|]. repeat constructor.
           ++ exists false, [st "1,"; st "None"], []. split; [reflexivity|]. split; [discriminate|]. split; [discriminate|]. split; [|exact I].
              constructor; [|constructor; [|constructor]].
              ** apply (vt_by _ (st "1") 1); [apply (no_end [] "1"%char); discriminate|vm_compute; reflexivity..].
              ** apply (vt_by _ (st "None") 0); [apply (no_end (st "Non") "e"%char); discriminate|vm_compute; reflexivity..].
        -- exists (st "y"), [st "="; st "TRUE"]. split; [vm_compute; reflexivity|]. split; [split; vm_compute; reflexivity|]. split.
           ++ exists [st "y"]. split; [|split; [discriminate|vm_compute; reflexivity]]. constructor; [|constructor]. apply ks_str; vm_compute; reflexivity.
           ++ exists true, [st "TRUE"], []. split; [reflexivity|]. split; [discriminate|]. split; [discriminate|]. split; [|exact I].
              constructor; [|constructor]. apply (vt_by _ (st "TRUE") 0); [apply (no_end (st "TRU") "E"%char); discriminate|vm_compute; reflexivity..].
    + exists (st "names First, second,,"). split; [reflexivity|]. exists (st "names"), [st "First,"; st "second,,"].
      split; [vm_compute; reflexivity|]. split; [split; vm_compute; reflexivity|]. split.
      * exists [st "names"]. split; [|split; [discriminate|vm_compute; reflexivity]]. constructor; [|constructor]. apply ks_str; vm_compute; reflexivity.
      * exists false, [st "First,"; st "second,,"], []. split; [reflexivity|]. split; [discriminate|]. split; [discriminate|]. split; [|exact I].
        constructor; [|constructor; [|constructor]].
        -- apply (vt_by _ (st "First") 1); [apply (no_end (st "Firs") "t"%char); discriminate|vm_compute; reflexivity..].
        -- apply (vt_by _ (st "second") 2); [apply (no_end (st "secon") "d"%char); discriminate|vm_compute; reflexivity..].
Qed.
Example C51_example_rejected : dash_line (st " --- ") /\ read (lines1 ++ [st " --- "]) = Raise ValueError.
Proof. split; vm_compute; reflexivity. Qed.
Example C51_example_values : parse_value (st "-12.50e+7") = SNum (st "-12.50e+7") /\ parse_value (st "NonE") = SNone /\
  parse_value (st "1.") = SStr (st "1.") /\ parse_value (st ".5") = SStr (st ".5").
Proof. vm_compute. auto. Qed.
Example C51_example_layout : split_ws [] (strip (st " 	ab " ++ st "  c,  ")) = [st "ab"; st "c,"].
Proof. vm_compute. reflexivity. Qed.
Example C51_example_unterminated : exists s, read [st "foo"; st "---"; st "a 1"] = Ok (s, 3) /\ attrs s = [].
Proof. eexists. split; vm_compute; reflexivity. Qed.

Example C51_example_numbers : read (lines1 ++ [st "12 3"]) = Raise TypeError /\ read (lines1 ++ [st "0"; st "--"; st "a 1"; st "--"]) = Raise ValueError /\
  read (lines1 ++ [st "7"; st "--"; st "a 1"; st "--"]) = Raise TypeError /\ s_get (mkSpecs [] None) [KStr (st "a"); KInt 3] = Ok (Dct []) /\
  (forall a, st "ab" <> a ++ [","%char]) /\ parse_seq [st "ab,,"; st "NULL"; st "#"; st "x"] = [SStr (st "ab"); SStr (st "null")].
Proof.
  repeat split; try (vm_compute; reflexivity). intros [|x [|y [|w a]]] H; discriminate H.
Qed.
Print Assumptions C50_stored.
Print Assumptions C50_surplus_keys_refuted.
Print Assumptions C50_prefix_refuted.
Print Assumptions C51_read.
Print Assumptions C51_noise.
Print Assumptions C51_layout.
Print Assumptions C51_values.
Print Assumptions C51_hyphens_rejected.
Print Assumptions C51_missing.
Print Assumptions C51_white.
Print Assumptions C51_lower.
Print Assumptions C51_words.
Print Assumptions C51_commas.
Print Assumptions C51_number_rejected.
Print Assumptions C51_number_dict_rejected.
Print Assumptions C51_unterminated_refuted.
Print Assumptions C51_lone_name_refuted.
Print Assumptions C51_empty_file_refuted.

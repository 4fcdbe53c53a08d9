(** * Model of the plotting and selection helpers of ade/history.py Analysis
    (history.py:76-537).  Not modelled here: what is drawn (yampex.Plotter).  The
    line fit, the figure dimensions and makePlotter are in PlotModel.v. *)
From Coq Require Import String Ascii Decimal DecimalString List Bool Arith ZArith.
From Verif Require Import Flt Py RankModel.
Import ListNotations.
Local Open Scope nat_scope.

(** Analysis.pick_N (history.py:258-272), on the number of parameters left *)
Definition pick_N (left : nat) : nat :=
  if (left =? 8) || (left =? 10) then 4 else if 8 <? left then 9 else left.
(** number of columns of a figure with N subplots (history.py:437) *)
Definition fig_columns (N : nat) : nat := if N =? 1 then 1 else if 6 <? N then 3 else 2.
(** the while loop of Analysis.plot (history.py:434-441): the parameters shown
    in each figure and the figure's number of columns.  [fuel] bounds the number
    of iterations; [None] when it is used up. *)
Fixpoint fig_loop {A} (fuel : nat) (kList : list A) : option (list (list A * nat)) :=
  match kList with
  | [] => Some []
  | _ :: _ =>
    match fuel with
    | O => None
    | S fuel =>
      let N := pick_N (length kList) in
      match fig_loop fuel (skipn N kList) with
      | Some l => Some ((firstn N kList, fig_columns N) :: l)
      | None => None
      end
    end
  end.
(** Analysis.plot (history.py:434-443): the figures made; with nothing to show
    the variable pt used after the loop was never assigned *)
Definition plot_figures {A} (kList : list A) : option (res (list (list A * nat))) :=
  match fig_loop (length kList) kList with
  | None => None
  | Some [] => Some (Raise UnboundLocalError)
  | Some l => Some (Ok l)
  end.

(** Analysis.name2k, k2name (history.py:189-201) *)
Definition name2k (names : list string) (name : string) : res Z :=
  match index_of (String.eqb name) names with
  | Some k => Ok (Z.of_nat k + 1)%Z
  | None => Raise ValueError
  end.
(** k2name (history.py:196-201) *)
Definition k2name (names : list string) (k : Z) : res string := py_index names (k - 1).

(** ** Analysis.filePath (history.py:291-327) *)
(** str.rfind of one character, as the parts before and after it
    (os.path.split, splitext: history.py:325-326) *)
Fixpoint last_split (c : ascii) (s : string) : option (string * string) :=
  match s with
  | EmptyString => None
  | String a r =>
    match last_split c r with
    | Some (p, q) => Some (String a p, q)
    | None => if Ascii.eqb a c then Some (EmptyString, r) else None
    end
  end.
(** whether a string consists of one character only, as in posixpath.split and splitext (history.py:325-326) *)
Fixpoint all_char (c : ascii) (s : string) : bool :=
  match s with EmptyString => true | String a r => Ascii.eqb a c && all_char c r end.
(** str.rstrip and str.lstrip of one character (history.py:325-327) *)
Fixpoint rstrip (c : ascii) (s : string) : string :=
  match s with
  | EmptyString => EmptyString
  | String a r =>
    match rstrip c r with
    | EmptyString => if Ascii.eqb a c then EmptyString else String a EmptyString
    | r' => String a r'
    end
  end.
(** str.lstrip (history.py:327) *)
Fixpoint lstrip (c : ascii) (s : string) : string :=
  match s with
  | EmptyString => EmptyString
  | String a r => if Ascii.eqb a c then lstrip c r else s
  end.
(** os.sep (history.py:324-325) *)
Definition slash : ascii := "/"%char.
(** the separator of extensions (history.py:326-327) *)
Definition dot : ascii := "."%char.
(** posixpath.split, posixpath.splitext of a name without slash, posixpath.join
    with a second part without slash (standard library, POSIX) (history.py:324-326) *)
Definition path_split (p : string) : string * string :=
  match last_split slash p with
  | None => (EmptyString, p)
  | Some (h, t) =>
    let head := (h ++ "/")%string in
    (if all_char slash head then head else rstrip slash head, t)
  end.
(** os.path.splitext (history.py:326) *)
Definition path_splitext (s : string) : string * string :=
  match last_split dot s with
  | None => (s, EmptyString)
  | Some (b, e) => if all_char dot b then (s, EmptyString) else (b, String dot e)
  end.
(** str.endswith of one character, as in posixpath.join (history.py:324) *)
Fixpoint ends_with (c : ascii) (s : string) : bool :=
  match s with
  | EmptyString => false
  | String a EmptyString => Ascii.eqb a c
  | String _ r => ends_with c r
  end.
(** os.path.join (history.py:324) *)
Definition path_join (a b : string) : string :=
  if String.eqb a EmptyString || ends_with slash a then (a ++ b)%string else (a ++ "/" ++ b)%string.
(** "{:d}".format(n) (history.py:322) *)
Definition dec (n : nat) : string := NilEmpty.string_of_uint (Nat.to_uint n).

(** fileSpec (history.py:100, 327) without width and height *)
Record fspec : Set := mkSpec { f_dir : string; f_base : string; f_ext : string; f_count : nat }.
(** filePath with baseFilePath (history.py:325-327) *)
Definition set_path (p : string) : fspec :=
  let (d, f) := path_split p in
  let (b, e) := path_splitext f in
  mkSpec d b (lstrip dot e) 0.
(** filePath without baseFilePath, fileSpec set (history.py:317-324) *)
Definition next_path (s : fspec) : fspec * string :=
  let n := S (f_count s) in
  let name := if 1 <? n then (f_base s ++ "-" ++ dec n ++ "." ++ f_ext s)%string
              else (f_base s ++ "." ++ f_ext s)%string in
  (mkSpec (f_dir s) (f_base s) (f_ext s) n, path_join (f_dir s) name).
(** the paths of n successive figures (history.py:315-324) *)
Fixpoint next_paths (n : nat) (s : fspec) : list string :=
  match n with O => [] | S n => let (s, p) := next_path s in p :: next_paths n s end.

(** ** correlator and plotCorrelated *)
(** Analysis.correlator (history.py:121-141).  [corr] is the correlation
    coefficient of two columns (np.corrcoef, an oracle); list.sort with
    reverse=True as stable insertion sort, descending by abs *)
Definition row : Set := (nat * nat * f64)%type.
(** the coefficient, row[2] (history.py:139) *)
Definition r_R (r : row) : f64 := snd r.
(** the loop over pairs of columns (history.py:133-138) *)
Definition kkR (corr : nat -> nat -> f64) (Nc : nat) : list row :=
  flat_map (fun k1 => flat_map (fun k2 => if k1 <? k2 then [(k1, k2, corr k1 k2)] else []) (seq 1 (Nc - 1))) (seq 1 (Nc - 1)).
(** one insertion of the sort (history.py:139) *)
Fixpoint rins (x : row) (l : list row) : list row :=
  match l with
  | [] => [x]
  | h :: t => if fltb (fabs (r_R x)) (fabs (r_R h)) then h :: rins x t else x :: l
  end.
(** correlator (history.py:121-141) *)
Definition correlator (corr : nat -> nat -> f64) (Nc : nat) : list row := fold_right rins [] (kkR corr Nc).

(** Analysis.plotCorrelated (history.py:495-537): the pairs drawn.  [count] goes
    up with each one; [None]/"" for no name.  Simplified: drawing does not raise;
    N a non-negative int *)
Fixpoint corr_loop (names : list string) (name : string) (N count : nat) (l : list row) : res (list row) :=
  match l with
  | [] => Ok []
  | r :: l =>
    let draw := if S count =? N then Ok [r] else bind (corr_loop names name N (S count) l) (fun t => Ok (r :: t)) in
    if String.eqb name EmptyString then draw
    else bind (k2name names (Z.of_nat (fst (fst r)))) (fun nm =>
           if String.eqb name nm then draw else corr_loop names name N count l)
  end.
(** plotCorrelated (history.py:495-537) *)
Definition plot_correlated (names : list string) (corr : nat -> nat -> f64) (Nc : nat) (name : option string) (N : nat) : res (list row) :=
  let Np := Nc - 1 in
  let combos := Np * (Np - 1) / 2 in
  if combos =? 0 then Ok [] else
  let N := if combos <? N then combos else N in
  corr_loop names (match name with Some s => s | None => EmptyString end) N 0 (correlator corr Nc).

(** ** Kf12 and Kp12 *)
(** Analysis.Kf12 (history.py:143-156).  [sse k] is X[k,0], a binary32 number as
    all of History's X; [rd] is the precision of the scalar operations f*mmSSE
    and SSE[0]+...: binary64 (identity) before numpy 2, binary32 (rnd32) from
    numpy 2 on; the comparison with the binary32 array is in binary32 *)
Definition fSSE (rd : f64 -> f64) (s0 s1 f : f64) : f64 :=
  let mm := rnd32 (fsub s1 s0) in
  rnd32 (rd (fadd s0 (rd (fmul f mm)))).
(** Kf12 (history.py:143-156) *)
Definition Kf12 (rd : f64 -> f64) (sse : nat -> f64) (K : list nat) (f1 f2 : f64) : res (list nat) :=
  match K with
  | [] => Raise IndexError
  | k0 :: _ =>
    let s0 := sse k0 in
    let s1 := sse (last K k0) in
    Ok (filter (fun k => fleb (fSSE rd s0 s1 f1) (sse k) && fltb (sse k) (fSSE rd s0 s1 f2)) K)
  end.

(** int(np.floor(x)) (history.py:169) *)
Definition ifloor (x : f64) : res Z :=
  bind (py_int x) (fun t => Ok (if fltb x (fofZ t) then t - 1 else t)%Z).
(** slice bounds clipped to the list, negative ones counted from the end (history.py:169) *)
Definition clip_bound (n : nat) (z : Z) : nat :=
  let z := if (z <? 0)%Z then Z.max 0 (z + Z.of_nat n) else z in
  Z.to_nat (Z.min z (Z.of_nat n)).
(** self.K[slice(a, b)] (history.py:169) *)
Definition py_slice {A} (l : list A) (a b : Z) : list A :=
  let a := clip_bound (length l) a in
  let b := clip_bound (length l) b in
  firstn (b - a) (skipn a l).
(** Analysis.Kp12 (history.py:158-169) *)
Definition Kp12 (K : list nat) (p1 p2 : f64) : res (list nat) :=
  let N := fofZ (Z.of_nat (length K)) in
  bind (ifloor (fmul p1 N)) (fun a => bind (ifloor (fmul p2 N)) (fun b => Ok (py_slice K a (b + 1)))).

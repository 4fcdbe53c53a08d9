(** * Model of ade/history.py: ClosestPairFinder and History.

    Lines cited are those of /repo/ade/history.py.  Row indices are natural
    numbers (numpy integer types are not distinguished); arrays are functions from
    row index to the list of the row's entries, all of them binary32 values.
    Python sets are lists; their iteration order is not relied upon, because the
    only place where it matters (which pair is first) feeds an oracle.  Not
    modelled: the distance computation of calcerator (its result, the array D, is
    an oracle), the cooperator's scheduling (the whole of an operation happens
    under the history's lock, so nothing can change the history in between), the
    plots. *)
From Coq Require Import List Bool Arith ZArith Lia.
From Verif Require Import Flt Py.
Import ListNotations.
Local Open Scope nat_scope.

(** ** sets of row indices *)
(** k in set (history.py:229-233, 632) *)
Definition mem (x : nat) (s : list nat) : bool := existsb (Nat.eqb x) s.
(** set.add (history.py:618-619, 1038-1040) *)
Definition sadd (x : nat) (s : list nat) : list nat := if mem x s then s else s ++ [x].
(** set.remove, set.discard (history.py:633-634, 1087-1088, 1107) *)
Definition sdel (x : nat) (s : list nat) : list nat := filter (fun y => negb (y =? x)) s.

(** ** ClosestPairFinder: its row sets K and Kn (history.py:580-597).  The array X of
    the pair finder only feeds the distances and is left out *)
Record cpf : Set := mkCpf { cK : list nat; cKn : list nat }.
(** clear (history.py:589-597) *)
Definition cpf_clear : cpf := mkCpf [] [].
(** setRow (history.py:598-620): [z] is the row *)
Definition set_row (c : cpf) (k : nat) (z : list f64) (never : bool) : res cpf :=
  if forallb isfin z then Ok (mkCpf (sadd k (cK c)) (if never then sadd k (cKn c) else cKn c))
  else Raise ValueError.
(** clearRow (history.py:622-635) *)
Definition clear_row (c : cpf) (k : nat) : cpf :=
  if mem k (cK c) then mkCpf (sdel k (cK c)) (sdel k (cKn c)) else c.

(** pairs_all (history.py:658-669) *)
Definition pairs_all (K : list nat) : list (nat * nat) :=
  filter (fun p => fst p <? snd p) (list_prod K K).

(** pairs_sampled (history.py:637-656).  [draw c j] is the j-th random number of the c-th
    (recursive) call, reduced to an index of list(self.K).  None: no result
    within [fuel] further recursive calls.  2.1 is the double nearest to it (history.py:649) *)
Definition f2_1 : f64 := flit 4728779608739021 (-51).
(** Ns, the number of pairs drawn (history.py:649-650) *)
Definition n_draws (Nr N : nat) : nat :=
  Z.to_nat (ftrunc (fmul (fdiv (fmul f2_1 (fofZ (Z.of_nat Nr))) (fofZ (Z.of_nat Nr - 1))) (fofZ (Z.of_nat N)))).
(** np.random.choice: the j-th row index drawn (history.py:651) *)
Definition drawn (K : list nat) (draw : nat -> nat) (j : nat) : nat := nth (draw j mod length K) K 0.
(** pairs_sampled (history.py:637-656) *)
Fixpoint pairs_sampled (K : list nat) (draw : nat -> nat -> nat) (fuel c N : nat) : option (list (nat * nat)) :=
  let B := map (fun j => (drawn K (draw c) (2 * j), drawn K (draw c) (2 * j + 1))) (seq 0 (n_draws (length K) N)) in
  let L := firstn N (filter (fun p => fst p <? snd p) B) in
  if length L <? N then
    match fuel with
    | O => None
    | S fuel => match pairs_sampled K draw fuel (S c) (N - length L) with
                | Some R => Some (L ++ R)
                | None => None
                end
    end
  else Some L.

(** np.argmin (history.py:737): the first index of the smallest value, the first NaN
    if there is one.  [best] among the indices below [i]; [n] indices to go *)
Fixpoint argmin_from (D : nat -> f64) (best i n : nat) : nat :=
  match n with
  | O => best
  | S n =>
    if isnan (D best) then best
    else if isnan (D i) || fltb (D i) (D best) then argmin_from D i (S i) n
    else argmin_from D best (S i) n
  end.
(** np.argmin of n values (history.py:737) *)
Definition argmin (D : nat -> f64) (n : nat) : nat := argmin_from D 0 1 (n - 1).

(** what is not determined: the distances per pair, the random numbers, and how
    often pairs_sampled may call itself (history.py:637-740) *)
Record orc : Type := mkOrc { dist : list (nat * nat) -> nat -> f64; draws : nat -> nat -> nat; calls : nat }.

(** calcerator and __call__ (history.py:671-758, 760-798) with Np pairs at most, without
    the unit-testing argument K.  None: does not fire.  np.argmin of an empty array raises ValueError *)
Definition cpf_call (Np : nat) (c : cpf) (o : orc) : option (res nat) :=
  let Nr := length (cK c) in
  if Nr =? 1 then Some (Ok (hd 0 (cK c)))
  else
    let K1 := if Nr * (Nr - 1) <? 2 * Np then Some (pairs_all (cK c)) else pairs_sampled (cK c) (draws o) (calls o) 0 Np in
    match K1 with
    | None => None
    | Some [] => Some (Raise ValueError)
    | Some K1 => Some (Ok (fst (nth (argmin (dist o K1) (length K1)) K1 (0, 0))))
    end.

(** ** History *)
(** an individual as far as the history uses it: i.SSE and i.values (history.py:1029, 1048) *)
Record ind : Set := mkInd { iSSE : f64; ivals : list f64 }.

(** the attributes of a History (history.py:834-844, 875-881) *)
Record hist : Type := mkHist {
  Nd : nat;                 (* len(names) *)
  nmax : nat; total : nat;  (* N_max, N_total *)
  X : nat -> list f64; K : list nat; Kp : list nat; Kn : list nat;
  krd : list (Z * nat);     (* the dict kr, keyed by hash *)
  cp : cpf;
  locked : bool             (* somebody failed to release dLock *)
}.

(** __init__ (history.py:834-844, 875-881): N_max None or 0 gives the class default 1500 *)
Definition h_init (nd nm : nat) : hist :=
  mkHist nd (if nm =? 0 then 15 * 100 else nm) 0 (fun _ => repeat fzero (S nd)) [] [] [] [] cpf_clear false.

(** np.searchsorted(a, v) (history.py:990): numpy's binary search, comparing in double
    precision; [fuel] bounds the iterations, None if it is exceeded *)
Fixpoint bsearch (a : nat -> f64) (v : f64) (fuel lo hi : nat) : option nat :=
  if lo <? hi then
    match fuel with
    | O => None
    | S fuel =>
      let mid := lo + (hi - lo) / 2 in
      if fltb (a mid) v then bsearch a v fuel (S mid) hi else bsearch a v fuel lo mid
    end
  else Some lo.

(** K.sort() on the local copy (history.py:993) *)
Fixpoint ins (x : nat) (l : list nat) : list nat :=
  match l with [] => [x] | y :: t => if x <=? y then x :: l else y :: ins x t end.
(** K.sort() (history.py:993) *)
Definition nsort (l : list nat) : list nat := fold_right ins [] l.

(** the loop over K[1:-1] (history.py:994-1000): at element number kk+1 of the sorted list
    with its neighbours; None when the loop ends without a return *)
Fixpoint kkr_loop (N : nat) (l : list nat) : option nat :=
  match l with
  | a :: ((b :: ((c :: _) as t2)) as t) =>
    if b =? 0 then kkr_loop N t
    else if b =? N - 1 then None
    else if negb (a =? b - 1) then Some (b - 1)
    else if negb (c =? b + 1) then Some (b + 1)
    else kkr_loop N t
  | _ => None
  end.

(** kkr (history.py:946-1003): an empty K makes a float array, which cannot index X *)
Definition kkr (h : hist) (sse : f64) (N : nat) : res (nat * nat) :=
  match K h with
  | [] => Raise IndexError
  | _ =>
    match bsearch (fun j => hd fnan (X h (nth j (K h) 0))) sse (length (K h)) 0 (length (K h)) with
    | None => Raise UserError (* never: see bsearch_spec *)
    | Some k =>
      let S := nsort (K h) in
      match kkr_loop N S with
      | Some r => Ok (k, r)
      | None =>
        if 0 <? hd 0 S then Ok (k, hd 0 S - 1)
        else Ok (k, Nat.min N (last S 0 + 1))
      end
    end
  end.

(** list.remove: the first occurrence (history.py:1085) *)
Fixpoint remove1 (x : nat) (l : list nat) : list nat :=
  match l with [] => [] | y :: t => if y =? x then t else y :: remove1 x t end.

(** purge (history.py:1071-1088) *)
Definition purge (h : hist) (kr : nat) : res hist :=
  if mem kr (K h) then
    Ok (mkHist (Nd h) (nmax h) (total h) (X h) (remove1 kr (K h)) (sdel kr (Kp h)) (sdel kr (Kn h)) (krd h)
               (clear_row (cp h) kr) (locked h))
  else Raise IndexError.

(** the dict kr (history.py:1046, 1105-1106) *)
Definition zget (d : list (Z * nat)) (k : Z) : option nat :=
  match find (fun p => Z.eqb (fst p) k) d with Some p => Some (snd p) | None => None end.
(** self.kr.pop (history.py:1106) *)
Definition zdel (d : list (Z * nat)) (k : Z) : list (Z * nat) := filter (fun p => negb (Z.eqb (fst p) k)) d.
(** self.kr[hash(i)] = kr (history.py:1046) *)
Definition zset (d : list (Z * nat)) (k : Z) (r : nat) : list (Z * nat) := zdel d k ++ [(k, r)].

(** self.X[kr,:] = SV (history.py:1029-1030): each entry is rounded to binary32; one
    entry is broadcast over the row, other lengths do not fit *)
Definition row_of (nd : nat) (i : ind) : res (list f64) :=
  let SV := map rnd32 (iSSE i :: ivals i) in
  if length SV =? S nd then Ok SV
  else match SV with [x] => Ok (repeat x (S nd)) | _ => Raise ValueError end.

(** hash(i) packs the SSE as binary32 (individual.py:189-191), which raises for
    finite numbers beyond its range *)
Definition pack_overflow (i : ind) : bool := isfin (iSSE i) && negb (isfin (rnd32 (iSSE i))).

Section Hash.
(** hash(i): any function of the individual (Python salts it per process) *)
Variable hash : ind -> Z.

(** writeRecord (history.py:1022-1047): the history afterwards and the exception, if any *)
Definition write_record (h : hist) (i : ind) (never : bool) (k r : nat) : hist * option exn :=
  if negb (r <? nmax h) then (h, Some IndexError)
  else match row_of (Nd h) i with
  | Raise e => (h, Some e)
  | Ok row =>
    let X' := fun j => if j =? r then row else X h j in
    let K' := insert_at k r (K h) in
    let tot := S (total h) in
    if never then
      match set_row (cp h) r row true with
      | Raise e => (mkHist (Nd h) (nmax h) tot X' K' (Kp h) (Kn h) (krd h) (cp h) (locked h), Some e)
      | Ok c => (mkHist (Nd h) (nmax h) tot X' K' (Kp h) (sadd r (Kn h)) (krd h) c (locked h), None)
      end
    else
      let Kp' := sadd r (Kp h) in
      let c := clear_row (cp h) r in
      if pack_overflow i then (mkHist (Nd h) (nmax h) tot X' K' Kp' (Kn h) (krd h) c (locked h), Some OverflowError)
      else (mkHist (Nd h) (nmax h) tot X' K' Kp' (Kn h) (zset (krd h) (hash i) r) c (locked h), None)
  end.

(** result of an operation's Deferred: fires with a value, fails, or never fires
    (history.py:914-1124) *)
Inductive outcome : Set := Ret (v : option nat) | Exc (e : exn) | Blocked.

(** the lock stays acquired (history.py:1050) *)
Definition lockit (h : hist) : hist :=
  mkHist (Nd h) (nmax h) (total h) (X h) (K h) (Kp h) (Kn h) (krd h) (cp h) true.

(** the rest of add from kkr on: an exception leaves the lock taken (history.py:1050-1069) *)
Definition add_at (h : hist) (sse : f64) (N : nat) (i : ind) (never : bool) : hist * outcome :=
  match (if N =? 0 then Ok (0, 0) else kkr h sse N) with
  | Raise e => (lockit h, Exc e)
  | Ok (k, r) =>
    match write_record h i never k r with
    | (h, None) => (h, Ret (Some r))
    | (h, Some e) => (lockit h, Exc e)
    end
  end.
(** ClosestPairFinder.Np_max (history.py:577) *)
Definition Np_max : nat := 100 * 100.
(** add (history.py:1005-1069): [sse] is i.SSE when add is called, [i] the individual when
    the lock was obtained *)
Definition h_add (h : hist) (sse : f64) (i : ind) (never : bool) (o : orc) : hist * outcome :=
  if negb (isfin sse) then (h, Ret None)
  else if locked h then (h, Blocked)
  else
    let N := length (K h) in
    if N <? nmax h then add_at h sse N i never
    else match cpf_call Np_max (cp h) o with
         | None => (lockit h, Blocked)
         | Some (Raise e) => (lockit h, Exc e)
         | Some (Ok kr) =>
           match purge h kr with
           | Raise e => (lockit h, Exc e)
           | Ok h => add_at h sse N i never
           end
         end.

(** notInPop (history.py:1090-1111), with a row index ... ; dLock.run releases the lock
    whatever happens *)
Definition not_in_row (h : hist) (kr : nat) (krd' : list (Z * nat)) : hist * outcome :=
  let h' c := mkHist (Nd h) (nmax h) (total h) (X h) (K h) (sdel kr (Kp h)) (Kn h) krd' c (locked h) in
  match (if kr <? nmax h then set_row (cp h) kr (X h kr) false else Raise IndexError) with
  | Ok c => (h' c, Ret None)
  | Raise e => (h' (cp h), Exc e)
  end.
(** ... and with an individual (history.py:1090-1111) *)
Definition not_in_pop (h : hist) (i : ind) : hist * outcome :=
  if locked h then (h, Blocked)
  else if pack_overflow i then (h, Exc OverflowError)
  else match zget (krd h) (hash i) with
       | None => (h, Ret None)
       | Some kr => not_in_row h kr (zdel (krd h) (hash i))
       end.

(** purgePop (history.py:1113-1124): [ks] is Kp in the order in which pop returns it *)
Fixpoint purge_all (h : hist) (ks : list nat) : res hist :=
  match ks with [] => Ok h | k :: ks => bind (purge h k) (fun h => purge_all h ks) end.
(** purgePop (history.py:1113-1124) *)
Definition purge_pop (h : hist) : hist * outcome :=
  if locked h then (h, Blocked)
  else match purge_all h (Kp h) with
       | Ok h => (mkHist (Nd h) (nmax h) (total h) (X h) (K h) (Kp h) (Kn h) [] (cp h) (locked h), Ret None)
       | Raise e => (h, Exc e) (* simplified: what had been purged before the failure is not *)
       end.

(** clear (history.py:914-930) *)
Definition h_clear (h : hist) : hist * outcome :=
  if locked h then (h, Blocked)
  else (mkHist (Nd h) (nmax h) 0 (X h) [] [] [] [] cpf_clear (locked h), Ret None).

(** operations in the order in which they get the lock (it is first come, first
    served) (history.py:881, 914-1124) *)
Inductive hop : Type :=
| OAdd (sse : f64) (i : ind) (never : bool) (o : orc)
| ONotIn (i : ind)
| ONotInRow (kr : nat)
| OPurgePop
| OClear.
(** one operation (history.py:914-1124) *)
Definition hstep (h : hist) (op : hop) : hist * outcome :=
  match op with
  | OAdd sse i never o => h_add h sse i never o
  | ONotIn i => not_in_pop h i
  | ONotInRow kr => if locked h then (h, Blocked) else not_in_row h kr (krd h)
  | OPurgePop => purge_pop h
  | OClear => h_clear h
  end.
(** a sequence of operations (history.py:914-1124) *)
Fixpoint hexec (h : hist) (ops : list hop) : hist :=
  match ops with [] => h | op :: ops => hexec (fst (hstep h op)) ops end.
End Hash.

(** ** reading *)
(** __getitem__ and __iter__ (history.py:891-912) *)
Definition h_get (h : hist) (k : nat) : option (list f64) := option_map (X h) (nth_error (K h) k).
(** __iter__ (history.py:904-912) *)
Definition h_iter (h : hist) : list (list f64) := map (fun r => tl (X h r)) (K h).

(** Analysis.value_vs_SSE (history.py:203-240): the rows selected; the ratio is a binary32
    division *)
Inductive sel : Set := SInPop | SNotInPop | SNeverInPop | SAny.
(** the conditions of the selections (history.py:228-234) *)
Definition in_sel (h : hist) (s : sel) (k : nat) : bool :=
  match s with
  | SInPop => mem k (Kp h)
  | SNotInPop => negb (mem k (Kp h)) && negb (mem k (Kn h))
  | SNeverInPop => mem k (Kn h)
  | SAny => true
  end.
(** self.X[kr,0] (history.py:227, 235) *)
Definition h_sse (h : hist) (r : nat) : f64 := hd fnan (X h r).
(** the rows K (history.py:226-236) *)
Definition selected (h : hist) (s : sel) (maxRatio : f64) : res (list nat) :=
  match K h with
  | [] => Raise IndexError
  | best :: _ =>
    Ok (filter (fun k => fleb (rnd32 (fdiv (h_sse h k) (h_sse h best))) maxRatio) (filter (in_sel h s) (K h)))
  end.

(** ** pickling: __getstate__, __setstate__, _initialize (history.py:846-881).  Index lists
    go through unsigned 16-bit integers; X is stored exactly *)
Definition u2 (n : nat) : nat := N.to_nat (N.modulo (N.of_nat n) 65536).
(** the state dict without names (history.py:850-859) *)
Record pickled : Type := mkPick {
  pk_Nd : nat; pk_nmax : nat; pk_total : nat; pk_X : nat -> list f64;
  pk_K : list nat; pk_Kp : list nat; pk_Kn : list nat; pk_kr : list (Z * nat) }.
(** __getstate__ (history.py:846-859) *)
Definition getstate (h : hist) : pickled :=
  mkPick (Nd h) (nmax h) (total h) (X h) (map u2 (K h)) (map u2 (Kp h)) (map u2 (Kn h)) (krd h).
(** _initialize (history.py:875-880) *)
Fixpoint rebuild (Xr : nat -> list f64) (Kp Kn : list nat) (c : cpf) (K : list nat) : res cpf :=
  match K with
  | [] => Ok c
  | kr :: K => if mem kr Kp then rebuild Xr Kp Kn c K
               else bind (set_row c kr (Xr kr) (mem kr Kn)) (fun c => rebuild Xr Kp Kn c K)
  end.
(** __setstate__ (history.py:861-873) *)
Definition setstate (p : pickled) : res hist :=
  bind (rebuild (pk_X p) (pk_Kp p) (pk_Kn p) cpf_clear (pk_K p)) (fun c =>
    Ok (mkHist (pk_Nd p) (pk_nmax p) (pk_total p) (pk_X p) (pk_K p) (nodup Nat.eq_dec (pk_Kp p)) (nodup Nat.eq_dec (pk_Kn p)) (pk_kr p) c false)).

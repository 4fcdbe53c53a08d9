(** * Model of the script pv, ade/scripts/pv.py:89-119.

    What the command line gives is in ArgsModel.v, loading in LoadModel.v (here an
    oracle), the data of the plots in VsModel.v and AnalModel.v.  Not modelled: the
    windows shown by yampex. *)
From Coq Require Import String List Bool Arith ZArith.
From Verif Require Import Flt Py ParamModel RankModel AnalModel HistModel VsModel.
Import ListNotations.
Local Open Scope nat_scope.

(** the options (pv.py:70-86) and the positional arguments; N is not negative *)
Record pvargs : Type := mkPv { a_d : string; a_f : string; a_r : f64; a_i : bool; a_N : nat; a_s : bool; a_v : bool; a_pos : list string }.
(** the analyzer of what was loaded: names, history, correlations of columns
    (p.history.a, pv.py:96-97) *)
Record loaded : Type := mkLoaded { l_names : list string; l_hist : hist; l_corr : nat -> nat -> f64 }.
(** what is done with it (pv.py:102-115) *)
Inductive fig : Type := FValues (s : list subplot) (semilog : bool) | FCorr (pairs : list row) (verbose : bool).
(** calls of the analyzer: filePath (pv.py:98) and drawing (pv.py:101-114) *)
Inductive act : Type := SetPath (f d : string) | Draw (x : fig) (dims : string).
(** how main ends (pv.py:93-94, 115-116) *)
Inductive pvres : Type := Shown (x : fig) | NoFile | NoAnalysis | Failed (e : exn).

(** plotCorrelated with noShow (history.py:515-536): None without a pair *)
Definition plotCorrelated (l : loaded) (name : option string) (N : nat) : res (option (list row)) :=
  let Np := length (l_names l) in
  if Np * (Np - 1) / 2 =? 0 then Ok None
  else bind (plot_correlated (l_names l) (l_corr l) (S Np) name N) (fun ps => Ok (Some ps)).

(** the loop over names (pv.py:107-110); [pt] the last plotter *)
Fixpoint corr_each (l : loaded) (a : pvargs) (names : list (option string)) (pt : option fig) : list act * (exn + option fig) :=
  match names with
  | [] => ([], inr pt)
  | n :: names =>
    match plotCorrelated l n (a_N a) with
    | Raise e => ([], inl e)
    | Ok None => corr_each l a names None
    | Ok (Some ps) => let x := FCorr ps (a_v a) in
                      let (acts, r) := corr_each l a names (Some x) in (Draw x (a_d a) :: acts, r)
    end
  end.
(** main (pv.py:89-116) *)
Definition pv_main (load : string -> res loaded) (a : pvargs) : list act * pvres :=
  match a_pos a with
  | [] => ([], NoFile)
  | file :: names =>
    match load file with
    | Raise e => ([], Failed e)
    | Ok l =>
      let acts0 := match a_f a with EmptyString => [] | f => [SetPath f (a_d a)] end in
      match (if feqb (a_r a) fzero then Ok None
             else bind (plot (l_names l) (l_hist l) (a_i a) (a_r a) (map PName names)) (fun s => Ok (Some (FValues s (a_s a))))) with
      | Raise e => (acts0, Failed e)
      | Ok pt =>
        let acts1 := acts0 ++ match pt with Some x => [Draw x (a_d a)] | None => [] end in
        let (acts2, r) := if a_N a =? 0 then ([], inr pt)
                          else corr_each l a (match names with [] => [None] | _ => map Some names end) pt in
        (acts1 ++ acts2, match r with inl e => Failed e | inr None => NoAnalysis | inr (Some x) => Shown x end)
      end
    end
  end.

(** Column names of results and of cached frames: metrics.py 327-410 (_compute_with_caching_and_postprocessing,
    manipulate), utils.py 113-150 (remove_empty_level, apply_name_tmpl), operations.py 128-190, metrics.py 1126-1153
    (MetricList.compute_slices).  Frames are objects whose columns attribute is assigned in place; only the column names
    are modelled.  MetricLists without name_tmpl and rename_columns. *)
From Coq Require Import String List Bool Arith.
Import ListNotations.
Open Scope list_scope.

(** Leaf metrics and operations.  [id] stands for the attributes in the fingerprint (class, variable, over, ...); the
    name and the name template are not among them (metrics.py 250-290). *)
Inductive nm := NLeaf (id : nat) (name : string) | NOp (id : nat) (tmpl : string -> string) (child : nm).
Inductive nkey := KLeaf (id : nat) | KOp (id : nat) (child : nkey).
Fixpoint nkey_of (m : nm) : nkey := match m with NLeaf i _ => KLeaf i | NOp i _ c => KOp i (nkey_of c) end.
Fixpoint nkey_eqb (a b : nkey) : bool :=
  match a, b with
  | KLeaf i, KLeaf j => Nat.eqb i j
  | KOp i a', KOp j b' => Nat.eqb i j && nkey_eqb a' b'
  | _, _ => false
  end.
Record nst := NSt { heap : list (list string); ncache : list (nkey * nat) }.
Definition columns (s : nst) (o : nat) : list string := nth o (heap s) [].
Definition alloc (cols : list string) (s : nst) : nat * nst := (List.length (heap s), NSt (heap s ++ [cols]) (ncache s)).
(** obj.columns = cols *)
Fixpoint set_at (o : nat) (cols : list string) (h : list (list string)) : list (list string) :=
  match h, o with
  | [], _ => []
  | _ :: h', O => cols :: h'
  | x :: h', S o' => x :: set_at o' cols h'
  end.
Definition assign_columns (o : nat) (cols : list string) (s : nst) : nst := NSt (set_at o cols (heap s)) (ncache s).
Fixpoint in_ncache (k : nkey) (c : list (nkey * nat)) : option nat :=
  match c with [] => None | (k', o) :: c' => if nkey_eqb k' k then Some o else in_ncache k c' end.

Section Round.
  (** whether the result with this key has an index of several levels: then remove_empty_level returns a new frame
      (droplevel), otherwise the frame it is given *)
  Variable multi : nkey -> bool.
  (** Operation.manipulate on the frame [o], not melted / melted (utils.melt makes a new frame first) *)
  Definition manipulate (k : nkey) (tmpl : string -> string) (melted : bool) (o : nat) (s : nst) : nat * nst :=
    if melted then alloc (map tmpl (columns s o)) s
    else let s := assign_columns o (map tmpl (columns s o)) s in
         if multi k then alloc (columns s o) s else (o, s).
  (** compute_on within a round.  A leaf makes a new frame from a number or a Series each time (to_dataframe). *)
  Fixpoint compute (m : nm) (melted : bool) (s : nst) : nat * nst :=
    match m with
    | NLeaf _ name => alloc [name] s
    | NOp _ tmpl c =>
        match in_ncache (nkey_of m) (ncache s) with
        | Some o => manipulate (nkey_of m) tmpl melted o s
        | None =>
            let (oc, s) := compute c false s in
            let (raw, s) := alloc (columns s oc) s in
            let (copy, s) := alloc (columns s raw) s in
            manipulate (nkey_of m) tmpl melted raw (NSt (heap s) ((nkey_of m, copy) :: ncache s))
        end
    end.
  Fixpoint compute_all (ms : list (nm * bool)) (s : nst) : list nat * nst :=
    match ms with
    | [] => ([], s)
    | (m, melted) :: ms' => let (o, s1) := compute m melted s in let (os, s2) := compute_all ms' s1 in (o :: os, s2)
    end.
  (** a MetricList: the children are computed one after the other, then concatenated: the column names per child *)
  Definition list_names (ms : list (nm * bool)) : list (list string) :=
    let (os, s) := compute_all ms (NSt [] []) in map (columns s) os.

  (** compute_on_sql with mode 'mixed' (operations.py 166-171): the names are put on the frame before it is cached, and
      manipulate is told not to (metrics.py 628-640). *)
  Fixpoint compute_mixed (m : nm) (s : nst) : nat * nst :=
    match m with
    | NLeaf _ name => alloc [name] s
    | NOp _ tmpl c =>
        match in_ncache (nkey_of m) (ncache s) with
        | Some o => if multi (nkey_of m) then alloc (columns s o) s else (o, s)
        | None =>
            let (oc, s) := compute_mixed c s in
            let (raw, s) := alloc (map tmpl (columns s oc)) s in
            let (copy, s) := alloc (columns s raw) s in
            let s := NSt (heap s) ((nkey_of m, copy) :: ncache s) in
            if multi (nkey_of m) then alloc (columns s raw) s else (raw, s)
        end
    end.
  Fixpoint compute_all_mixed (ms : list nm) (s : nst) : list nat * nst :=
    match ms with
    | [] => ([], s)
    | m :: ms' => let (o, s1) := compute_mixed m s in let (os, s2) := compute_all_mixed ms' s1 in (o :: os, s2)
    end.
  Definition list_names_mixed (ms : list nm) : list (list string) :=
    let (os, s) := compute_all_mixed ms (NSt [] []) in map (columns s) os.
End Round.

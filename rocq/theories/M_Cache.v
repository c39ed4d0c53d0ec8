(** Evaluation of metric trees: Metric.compute_on with the shared cache (metrics.py 281-363,
    425-440, 478-552, 830-846, 1130-1160, 1420-1500; operations.py 128-154) and CacheKey
    (utils.py 315-409), next to the evaluation without any cache. *)
From Coq Require Import List String ZArith QArith Bool.
From Verif Require Import M_Metric.
Import ListNotations.
Open Scope string_scope.
Open Scope list_scope.

(** Python results: a value or a raised exception. *)
Inductive res (A : Type) := Ok (a : A) | Err (e : string).
Arguments Ok {A} _. Arguments Err {A} _.
Definition rbind {A B} (r : res A) (f : A -> res B) : res B :=
  match r with Ok a => f a | Err e => Err e end.
Definition rmapM {A B} (f : A -> res B) : list A -> res (list B) :=
  fix go l := match l with
  | [] => Ok []
  | x :: r => rbind (f x) (fun y => rbind (go r) (fun ys => Ok (y :: ys)))
  end.

(** Results of metrics.  [RS]: a number or Series, [RF]: a DataFrame, [RL]: the list that
    MetricList.compute_slices returns.  The content [V] is arbitrary and has no column names
    (names are treated separately, see M_Naming). *)
Inductive ret (V : Type) := RS (v : V) | RF (v : V) | RL (l : list (ret V)).
Arguments RS {V} _. Arguments RF {V} _. Arguments RL {V} _.
Inductive carg (V : Type) := CV (r : ret V) | CC (z : Z).
Arguments CV {V} _. Arguments CC {V} _.

(** What the pandas code computes on data, as arbitrary functions:
    [lsem]: SimpleMetric.compute_slices / a user's compute; [csem]: CompositeMetric.compute_on_children;
    [osem]: Operation.compute_on_children; [usem]: a user's compute on the result of its child;
    [concat]: MetricList.to_dataframe; [groups]: the slice values split_data yields (order of
    groupby.indices); [asm]: assembling slices in Metric.compute_slices; [q]: a df.query condition
    on a row, [qbad]: conditions df.query raises on. *)
Record sem (V : Type) := Sem {
  lsem : leaf -> frame -> list string -> res (ret V);
  csem : binop -> carg V -> carg V -> list string -> res (ret V);
  osem : opk -> list string -> list string -> ret V -> list string -> res (ret V);
  usem : string -> nat -> ret V -> res (ret V);
  concat : list (ret V) -> res V;
  groups : frame -> list string -> list (list cell);
  asm : list string -> list (list cell * ret V) -> res (ret V);
  q : string -> row -> bool;
  qbad : string -> bool
}.
Arguments lsem {V} _. Arguments csem {V} _. Arguments osem {V} _. Arguments usem {V} _.
Arguments concat {V} _. Arguments groups {V} _. Arguments asm {V} _. Arguments q {V} _. Arguments qbad {V} _.

Section Eval.
  Context {V : Type} (S : sem V).

  (** df.query(self.where), metrics.py 480, for the list of conditions (that the joined text
      means the conjunction is C13_pandas_query). *)
  Definition query (w : list string) (df : frame) : res frame :=
    if existsb (qbad S) w then Err "query"
    else Ok (filter (fun r => forallb (fun c => q S c r) w) df).

  (** Metric.manipulate, metrics.py 369-410, without melting and naming; MetricList.to_dataframe
      1203-1209. *)
  Definition manip (return_dataframe : bool) (r : ret V) : res (ret V) :=
    match r with
    | RF v => Ok (RF v)
    | RS v => Ok (if return_dataframe then RF v else RS v)
    | RL l => if return_dataframe then rbind (concat S l) (fun v => Ok (RF v)) else Ok (RL l)
    end.

  (** df.iloc[idx] for one group, metrics.py 570-577. *)
  Definition slice (df : frame) (sb : list string) (vals : list cell) : frame :=
    filter (fun r => forallb (fun cv => cell_eqb (r (fst cv)) (snd cv)) (combine sb vals)) df.

  (** ** Evaluation without a cache: what every metric means on its own. *)
  Fixpoint den (m : metric) (df : frame) (sb : list string) : res (ret V) :=
    match m with
    | Const _ => Err "not a Metric"
    | Node i k w cs =>
        rbind (query w df) (fun df' =>
        match k with
        | KLeaf l => lsem S l df' sb
        | KComp b =>
            rbind (rmapM (fun c => match c with
                                   | Const z => Ok (CC z)
                                   | _ => rbind (rbind (den c df' sb) (manip (is_list c))) (fun r => Ok (CV r))
                                   end) cs)
                  (fun args => match args with
                               | [a; b'] => csem S b a b' sb
                               | _ => Err "CompositeMetric can only have two children."
                               end)
        | KList crd =>
            Ok (RL (flat_map (fun c => match rbind (den c df' sb) (manip crd) with
                                       | Ok r => [r] | Err _ => [] end) cs))
        | KOp o ex exi =>
            match cs with
            | [c] => rbind (rbind (den c df' (sb ++ ex)) (manip true)) (fun r => osem S o ex exi r sb)
            | _ => Err "We can only handle one child Metric!"
            end
        | KCustom u =>
            match cs with
            | [c] =>
                let one d := rbind (rbind (den c d []) (manip true)) (usem S u i) in
                match sb with
                | [] => one df'
                | _ => rbind (rmapM (fun vals => rbind (one (slice df' sb vals)) (fun r => Ok (vals, r)))
                                    (groups S df' sb)) (asm S sb)
                end
            | _ => Err "We can only handle one child Metric!"
            end
        end)
    end.

  (** m.compute_on(df, sb, return_dataframe = rdf), had there been no cache. *)
  Definition value (m : metric) (df : frame) (sb : list string) (rdf : bool) : res (ret V) :=
    rbind (den m df sb) (manip rdf).
End Eval.

(** ** CacheKey *)
(** Raw keys given by the user; "" stands for a falsy key. *)
Definition raw := string.
Record ckey := CKey {
  k_fp : fval; k_raw : option raw; k_where : list string; k_split : list string;
  k_slice : list (string * cell) }.

(** set semantics of [where] in CacheKey: sorted without duplicates (utils.py 340-342, 370). *)
Fixpoint set_ins (x : string) (l : list string) : list string :=
  match l with
  | [] => [x]
  | y :: r => if String.eqb x y then l else if str_gtb x y then y :: set_ins x r else x :: l
  end.
Definition to_set (l : list string) : list string := fold_right set_ins [] l.

Fixpoint assoc {A} (k : string) (l : list (string * A)) : option A :=
  match l with [] => None | (k', v) :: r => if String.eqb k k' then Some v else assoc k r end.

(** dict(zip(split_by, slice_i)): later pairs win; metrics.py 516. *)
Fixpoint dict_of (l : list (string * cell)) : list (string * cell) :=
  match l with
  | [] => []
  | (k, v) :: r => match assoc k (dict_of r) with Some _ => dict_of r | None => (k, v) :: dict_of r end
  end.
(** sorted(slice_val.items()), utils.py 356; the keys are distinct. *)
Fixpoint pair_ins (x : string * cell) (l : list (string * cell)) : list (string * cell) :=
  match l with
  | [] => [x]
  | y :: r => if str_gtb (fst x) (fst y) then y :: pair_ins x r else x :: l
  end.
Definition pair_sort (l : list (string * cell)) := fold_right pair_ins [] l.

(** utils.py 344-349: the slice of the wrapped key is added to the new one. *)
Fixpoint merge_slice (new old : list (string * cell)) : res (list (string * cell)) :=
  match old with
  | [] => Ok new
  | (k, v) :: r =>
      match assoc k new with
      | Some v' => if cell_eqb v' v then merge_slice new r else Err "Incompatible data slice values!"
      | None => merge_slice (new ++ [(k, v)]) r
      end
  end.

Inductive karg := KRaw (r : raw) | KKey (k : ckey).
(** Truthiness of a key. *)
Definition truthy (k : option karg) : bool :=
  match k with None => false | Some (KRaw r) => negb (String.eqb r "") | Some (KKey _) => true end.
Definition por (a b : option karg) : option karg := if truthy a then a else b.   (* a or b *)

(** CacheKey.__init__, utils.py 315-371 (extra_info is always () in this model). *)
Definition new_key (m : metric) (key : option karg) (w split : list string)
    (slice_val : list (string * cell)) : res ckey :=
  match key with
  | Some (KKey k) =>
      rbind (merge_slice slice_val (k_slice k)) (fun sl =>
      Ok (CKey (fp0 m) (k_raw k) (to_set (k_where k ++ w))
               (match split with [] => k_split k | _ => split end) (pair_sort sl)))
  | Some (KRaw r) => Ok (CKey (fp0 m) (Some r) (to_set w) split (pair_sort slice_val))
  | None => Ok (CKey (fp0 m) None (to_set w) split (pair_sort slice_val))
  end.

(** CacheKey.replace_key, utils.py 377-381. *)
Definition replace_key (k : ckey) (r : raw) : ckey :=
  CKey (k_fp k) (Some r) (k_where k) (k_split k) (k_slice k).

(** Metric.wrap_cache_key, metrics.py 344-348; [self_key] is self.cache_key. *)
Definition wrap (m : metric) (self_key : option ckey) (key : option karg) (split : list string)
    (slice_val : list (string * cell)) : res ckey :=
  let w := match m with Node _ _ w _ => w | Const _ => [] end in
  let key1 := match key, self_key with
              | Some (KRaw r), Some k => if String.eqb r "" then key else Some (KKey (replace_key k r))
              | _, _ => key
              end in
  new_key m (por key1 (option_map KKey self_key)) w split slice_val.

(** ** Evaluation with the cache *)
Section Run.
  Context {V : Type} (S : sem V).
  (** Equality of keys as the dict sees it; utils.py 403-415 compares hashes (see M_Hash). *)
  Variable keq : ckey -> ckey -> bool.

  (** The shared dict and the attribute [cache_key] of every object. *)
  Record state := St { cache : list (ckey * ret V); kof : nat -> option ckey }.

  Definition lookup (k : ckey) (st : state) : option (ret V) :=
    option_map snd (find (fun e => keq (fst e) k) (cache st)).
  (** self.cache[key] = val; an entry with an equal key keeps its position and key. *)
  Fixpoint put (k : ckey) (v : ret V) (l : list (ckey * ret V)) : list (ckey * ret V) :=
    match l with
    | [] => [(k, v)]
    | e :: r => if keq (fst e) k then (fst e, v) :: r else e :: put k v r
    end.
  Definition save (k : ckey) (v : ret V) (st : state) : state := St (put k v (cache st)) (kof st).
  Definition setk (i : nat) (k : option ckey) (st : state) : state :=
    St (cache st) (fun j => if Nat.eqb i j then k else kof st j).
  (** clean_up_cache, metrics.py 425-440. *)
  Definition cleanup (m : metric) (st : state) : state :=
    St [] (fun j => if existsb (Nat.eqb j) (oids m) then None else kof st j).

  Definition M (A : Type) := state -> res A * state.
  Definition mret {A} (r : res A) : M A := fun st => (r, st).
  Definition mbind {A B} (x : M A) (f : A -> M B) : M B :=
    fun st => match x st with (Ok a, st') => f a st' | (Err e, st') => (Err e, st') end.
  Definition mget : M state := fun st => (Ok st, st).
  Definition mupd (f : state -> state) : M unit := fun st => (Ok tt, f st).
  (** try: x finally: f *)
  Definition finally {A} (x : M A) (f : state -> state) : M A :=
    fun st => let (r, st') := x st in (r, f st').
  Definition mmapM {A B} (f : A -> M B) : list A -> M (list B) :=
    fix go l := match l with
    | [] => mret (Ok [])
    | x :: r => mbind (f x) (fun y => mbind (go r) (fun ys => mret (Ok (y :: ys))))
    end.
  (** for m in self: try ... except Exception: print; metrics.py 1144-1159. *)
  Definition mcollect {A B} (f : A -> M B) : list A -> M (list B) :=
    fix go l := match l with
    | [] => mret (Ok [])
    | x :: r => fun st => match f x st with
                          | (Ok y, st') => mbind (go r) (fun ys => mret (Ok (y :: ys))) st'
                          | (Err _, st') => go r st'
                          end
    end.

  (** self.wrap_cache_key(...) in the current state. *)
  Definition mwrap (m : metric) (i : nat) (key : option karg) (split : list string) (sl : list (string * cell)) : M ckey :=
    fun st => (wrap m (kof st i) key split sl, st).

  (** Metric.compute_on(df, sb, return_dataframe = rdf, cache_key = ck) with the cache already
      in the state, metrics.py 281-342.  [rec] below is self.compute_util_metric_on (830-846). *)
  Fixpoint run (m : metric) (df : frame) (sb : list string) (rdf : bool) (ck : option karg) : M (ret V) :=
    match m with
    | Const _ => mret (Err "not a Metric")
    | Node i k w cs =>
        let util c d sb' rdf' :=
          mbind (mwrap m i None sb' []) (fun key => run c d sb' rdf' (Some (KKey key))) in
        let compute_through :=   (* metrics.py 478-484 *)
          mbind (mret (query S w df)) (fun df' =>
          match k with
          | KLeaf l => mret (lsem S l df' sb)
          | KComp b =>           (* metrics.py 1428-1447 *)
              mbind (mmapM (fun c => match c with
                                     | Const z => mret (Ok (CC z))
                                     | _ => mbind (util c df' sb (is_list c)) (fun r => mret (Ok (CV r)))
                                     end) cs)
                    (fun args => match args with
                                 | [a; b'] => mret (csem S b a b' sb)
                                 | _ => mret (Err "CompositeMetric can only have two children.")
                                 end)
          | KList crd =>         (* metrics.py 1130-1160 *)
              mbind (mcollect (fun c => util c df' sb crd) cs) (fun l => mret (Ok (RL l)))
          | KOp o ex exi =>      (* operations.py 128-154 *)
              match cs with
              | [c] => mbind (util c df' (sb ++ ex) true) (fun r => mret (osem S o ex exi r sb))
              | _ => mret (Err "We can only handle one child Metric!")
              end
          | KCustom u =>         (* metrics.py 494-552 *)
              match cs with
              | [c] =>
                  let one d := mbind (util c d [] true) (fun r => mret (usem S u i r)) in
                  match sb with
                  | [] => one df'
                  | _ =>
                      mbind (mmapM (fun vals =>
                               mbind mget (fun st0 =>
                               let old := kof st0 i in
                               mbind (mwrap m i (option_map KKey old) [] (dict_of (combine sb vals))) (fun key =>
                               mbind (mupd (setk i (Some key))) (fun _ =>
                               finally (mbind (one (slice df' sb vals)) (fun r => mret (Ok (vals, r))))
                                       (setk i old)))))
                             (groups S df' sb))
                            (fun parts => mret (asm S sb parts))
                  end
              | _ => mret (Err "We can only handle one child Metric!")
              end
          end) in
        finally
          (mbind mget (fun st0 =>
           mbind (mwrap m i (por ck (option_map KKey (kof st0 i))) sb []) (fun key =>
           mbind mget (fun st1 =>
           mbind (match lookup key st1 with
                  | Some r => mret (Ok r)
                  | None =>
                      mbind (mupd (setk i (Some key))) (fun _ =>
                      mbind compute_through (fun r =>
                      mbind (mupd (save key r)) (fun _ => mret (Ok r))))
                  end)
                 (fun r => mret (manip S rdf r))))))
          (match ck with None => cleanup m | Some _ => fun st => st end)
    end.

  (** A call by the user.  [dict = None]: no [cache] argument, a new dict is made (metrics.py
      319); otherwise the user's dict, which is returned with its new content. *)
  Definition compute_on (m : metric) (df : frame) (sb : list string) (rdf : bool)
      (cache_key : option raw) (dict : option (list (ckey * ret V))) (keys : nat -> option ckey)
      : res (ret V) * state :=
    run m df sb rdf (option_map KRaw cache_key) (St (match dict with None => [] | Some c => c end) keys).
End Run.
Arguments St {V} _ _. Arguments cache {V} _. Arguments kof {V} _.

(** ** push_filters_to_leaf, utils.py 230-271, for a metric without a cache_key; add_where,
    metrics.py 273-279 (the order a Python set yields is irrelevant: [where] sorts it).  The
    copies keep the [oid] of the original here; only fingerprints of user classes show it. *)
Definition add_where (m : metric) (w : list string) : metric :=
  match m with
  | Const z => Const z
  | Node i k w0 cs => Node i k (match w0 with [] => w | _ => to_set (w0 ++ w) end) cs
  end.
Fixpoint push_down (w : list string) (m : metric) : metric :=   (* m.add_where(w), then pushed *)
  match m with
  | Const z => Const z
  | Node i k w0 cs =>
      let w' := match w with [] => w0 | _ => match w0 with [] => w | _ => to_set (w0 ++ w) end end in
      match cs with
      | [] => Node i k w' []
      | _ => Node i k [] (map (push_down w') cs)
      end
  end.
Definition push_filters (m : metric) : metric := push_down [] m.

(** A call m.compute_on(df, sb, return_dataframe, cache_key) by the user. *)
Record call := Call { c_metric : metric; c_df : frame; c_split : list string; c_rdf : bool; c_key : option raw }.
(** Calls in sequence.  Those with a cache_key pass one shared dict as [cache], the others pass
    none. *)
Fixpoint history {V} (S : sem V) (keq : ckey -> ckey -> bool) (l : list call) (dict : list (ckey * ret V))
    (keys : nat -> option ckey) : list (res (ret V)) :=
  match l with
  | [] => []
  | c :: r =>
      match c_key c with
      | None =>
          let (x, st) := compute_on S keq (c_metric c) (c_df c) (c_split c) (c_rdf c) None None keys in
          x :: history S keq r dict (kof st)
      | Some k =>
          let (x, st) := compute_on S keq (c_metric c) (c_df c) (c_split c) (c_rdf c) (Some k) (Some dict) keys in
          x :: history S keq r (cache st) (kof st)
      end
  end.

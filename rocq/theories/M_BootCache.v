(** Reusing the results of repeated resamples, and the batches of mixed mode:
    operations.py 1776-1810 (compute_on_samples), 2675-2693 and 2845-2882 (get_samples with
    use_cache), 2695-2742 (compute_children_sql). *)
From Coq Require Import List Bool String Arith NArith.
From Verif Require Import M_Num M_Frame M_Bootstrap M_SqlText.
Import ListNotations.
Open Scope list_scope.

(** A cache key of a resample, a Python tuple: Bootstrap uses the labels of the drawn units,
    PoissonBootstrap the weights.  Integers are written as their decimal label. *)
Definition sample_key := list (list string).
Definition weights_key (ws : list nat) : sample_key :=
  List.map (fun w => [of_chars (str_of_N (N.of_nat w))]) ws.

Section Samples.
  Context {T V : Type}.
  Variable child : T -> option V.    (* children[0].compute_on(sample, split_by); None = it raises *)
  (** The entries of the shared cache for this child, split_by and filters.  The key has no other
      component (utils.py CacheKey): neither the unit column nor the kind of bootstrap. *)
  Definition bcache := list (sample_key * V).
  Fixpoint cached (k : sample_key) (c : bcache) : option V :=
    match c with
    | [] => None
    | (k', v) :: c' => if list_eq_dec (list_eq_dec string_dec) k' k then Some v else cached k c'
    end.
  (** compute_on_samples: a sample without a key is computed, one with a key is looked up first;
      compute_on(None) raises; samples that raise are skipped. *)
  Fixpoint compute_on_samples (c : bcache) (samples : list (option sample_key * option T)) : list V * bcache :=
    match samples with
    | [] => ([], c)
    | (None, d) :: rest =>
        let (es, c') := compute_on_samples c rest in
        (match d with Some d => match child d with Some v => v :: es | None => es end | None => es end, c')
    | (Some k, d) :: rest =>
        match cached k c with
        | Some v => let (es, c') := compute_on_samples c rest in (v :: es, c')
        | None => match d with
                  | Some d => match child d with
                              | Some v => let (es, c') := compute_on_samples ((k, v) :: c) rest in (v :: es, c')
                              | None => compute_on_samples c rest
                              end
                  | None => compute_on_samples c rest
                  end
        end
    end.
  (** get_samples: [draws] are the resamples drawn (units or weights) with their key and data;
      [sampled] the keys yielded so far. *)
  Fixpoint yield_samples {D} (use_cache : bool) (key : D -> sample_key) (data : D -> T) (sampled : list sample_key) (draws : list D)
      : list (option sample_key * option T) :=
    match draws with
    | [] => []
    | d :: rest =>
        if use_cache then
          if in_dec (list_eq_dec (list_eq_dec string_dec)) (key d) sampled
          then (Some (key d), None) :: yield_samples use_cache key data sampled rest
          else (Some (key d), Some (data d)) :: yield_samples use_cache key data (key d :: sampled) rest
        else (None, Some (data d)) :: yield_samples use_cache key data sampled rest
    end.
End Samples.

(** ** Mixed mode, compute_children_sql 2695-2742: the sizes of the batches. *)
Definition batches (n batch_size : nat) : list nat :=
  repeat batch_size (n / batch_size) ++ (if Nat.eqb (n mod batch_size) 0 then [] else [n mod batch_size]).
(** The resamples are numbered 1..size in each batch (GENERATE_ARRAY).  [resample b i] is resample
    [i] as executed in batch [b]. *)
Definition batch_results {V} (resample : nat -> nat -> V) (n batch_size : nat) : list V :=
  List.concat (List.map (fun bs => List.map (resample (fst bs)) (seq 1 (snd bs)))
                        (combine (seq 0 (List.length (batches n batch_size))) (batches n batch_size))).
(** PoissonBootstrap with a unit, 3018-3034: the uniform variable of a unit is a hash of its labels
    and of the number of the resample, so it does not depend on the batch. *)
Definition concat_labels (labels : list string) : string := fold_right append EmptyString labels.
Definition hashed_uniform {U} (fingerprint : string -> U) (group_and_unit : list string) (i : nat) : U :=
  fingerprint (concat_labels (group_and_unit ++ [of_chars (str_of_N (N.of_nat i))])).

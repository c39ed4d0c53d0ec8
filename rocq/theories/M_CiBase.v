(** Metrics with a confidence level and the base values they keep in the cache: operations.py 1838-1858
    (MetricWithCI.manipulate), metrics.py 320-363 (_compute_with_caching_and_postprocessing, wrap_cache_key,
    save_to_cache, get_cached), utils.py 315-376 (CacheKey, add_extra_info). *)
From Coq Require Import List String Bool Arith.
From Verif Require Import M_Metric M_Cache.
Import ListNotations.
Open Scope string_scope.
Open Scope list_scope.

(** An instance of Jackknife, Bootstrap, ...: its identity, its fingerprint without [where], [where_], and whether it
    has a confidence level. *)
Record ci := Ci { ci_id : nat; ci_fp : fval; ci_where : list string; ci_conf : bool }.

(** CacheKey.__init__ and Metric.wrap_cache_key as in M_Cache ([new_key], [wrap]), for such an instance. *)
Definition ci_new_key (m : ci) (key : option karg) (split : list string) : res ckey :=
  match key with
  | Some (KKey k) =>
      rbind (merge_slice [] (k_slice k)) (fun sl =>
      Ok (CKey (ci_fp m) (k_raw k) (to_set (k_where k ++ ci_where m))
               (match split with [] => k_split k | _ => split end) (pair_sort sl)))
  | Some (KRaw r) => Ok (CKey (ci_fp m) (Some r) (to_set (ci_where m)) split [])
  | None => Ok (CKey (ci_fp m) None (to_set (ci_where m)) split [])
  end.
Definition ci_wrap (m : ci) (self_key : option ckey) (key : option karg) (split : list string) : res ckey :=
  let key1 := match key, self_key with
              | Some (KRaw r), Some k => if String.eqb r "" then key else Some (KKey (replace_key k r))
              | _, _ => key
              end in
  ci_new_key m (por key1 (option_map KKey self_key)) split.

Section CI.
  (** results and base values *)
  Context {V B : Type}.
  (** compute_fn: what a computation under this key returns, with the attribute meterstick_change_base when the metric
      has a confidence level.  It depends on the key because the key determines metric, filters, split_by and data (C03).
      Entries for other metrics that it adds to the cache are left out. *)
  Variable comp : ckey -> res (V * B).
  Variable keq : ckey -> ckey -> bool.

  (** the dict: results, and base values under a key with the extra info 'base'; and the attribute cache_key of every
      instance *)
  Inductive entry := ERes (v : V) | EBase (b : B).
  Record cst := CSt { cdict : list ((ckey * bool) * entry); ckof : nat -> option ckey }.
  Definition ckey_eqb (a b : ckey * bool) : bool := keq (fst a) (fst b) && Bool.eqb (snd a) (snd b).
  Definition cget (k : ckey * bool) (st : cst) : option entry :=
    option_map snd (find (fun e => ckey_eqb (fst e) k) (cdict st)).
  Definition csave (k : ckey * bool) (e : entry) (st : cst) : cst :=
    CSt ((k, e) :: filter (fun e' => negb (ckey_eqb (fst e') k)) (cdict st)) (ckof st).
  Definition csetk (i : nat) (k : ckey) (st : cst) : cst :=
    CSt (cdict st) (fun j => if Nat.eqb i j then Some k else ckof st j).

  (** MetricWithCI.manipulate; [attr]: the attribute of the frame, which a copy in the cache does not have *)
  Definition ci_manipulate (m : ci) (v : V) (attr : option B) (st : cst) : res (V * option B) * cst :=
    if ci_conf m then
      match ci_wrap m (ckof st (ci_id m)) (option_map KKey (ckof st (ci_id m))) [] with
      | Err e => (Err e, st)
      | Ok key =>
          match attr with
          | Some b => (Ok (v, Some b), csave (key, true) (EBase b) st)
          | None => match cget (key, true) st with
                    | Some (EBase b) => (Ok (v, Some b), st)
                    | Some (ERes _) => (Err "not a base", st)
                    | None => (Err "KeyError", st)
                    end
          end
      end
    else (Ok (v, None), st).

  (** compute_on(df, split_by, cache_key = ck, cache = the dict) *)
  Definition ci_compute (m : ci) (sb : list string) (ck : option karg) (st : cst) : res (V * option B) * cst :=
    match ci_wrap m (ckof st (ci_id m)) (por ck (option_map KKey (ckof st (ci_id m)))) sb with
    | Err e => (Err e, st)
    | Ok key =>
        match cget (key, false) st with
        | Some (ERes v) => ci_manipulate m v None st
        | Some (EBase _) => (Err "not a result", st)
        | None =>
            let st := csetk (ci_id m) key st in
            match comp key with
            | Err e => (Err e, st)
            | Ok (v, b) => ci_manipulate m v (if ci_conf m then Some b else None) (csave (key, false) (ERes v) st)
            end
        end
    end.

  (** The children of a MetricList (metrics.py 1138-1152), computed with the key of the list. *)
  Fixpoint ci_list (ms : list ci) (sb : list string) (parent : ckey) (st : cst) : list (res (V * option B)) * cst :=
    match ms with
    | [] => ([], st)
    | m :: ms' => let (r, st1) := ci_compute m sb (Some (KKey parent)) st in
                  let (rs, st2) := ci_list ms' sb parent st1 in (r :: rs, st2)
    end.
  (** calls one after the other with the user's dict: instance, split_by, cache_key *)
  Fixpoint ci_calls (cs : list (ci * list string * raw)) (st : cst) : list (res (V * option B)) * cst :=
    match cs with
    | [] => ([], st)
    | (m, sb, r) :: cs' => let (x, st1) := ci_compute m sb (Some (KRaw r)) st in
                           let (xs, st2) := ci_calls cs' st1 in (x :: xs, st2)
    end.
End CI.
Arguments CSt {V B} _ _. Arguments cdict {V B} _. Arguments ckof {V B} _.
Arguments ERes {V B} _. Arguments EBase {V B} _.

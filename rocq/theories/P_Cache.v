(** C01-C06, C08, C23, C46: caching, fingerprints, keys, failures and filters of metric trees. *)
From Coq Require Import List String ZArith QArith Bool.
From Verif Require Import M_Metric M_Cache S_Cache M_Hash S_Hash S_CacheEx L_Fp L_Hash L_Cache L_CacheTop.
Import ListNotations.
Open Scope string_scope.
Open Scope list_scope.

(** Example metrics.  The numbers identify the objects. *)
Definition sum_x (i : nat) (w : list string) := Node i (KLeaf (LSum "x")) w [].
Definition count_x (i : nat) (w : list string) := Node i (KLeaf (LCount "x" false)) w [].
Definition mean_x (i : nat) (w : list string) := Node i (KLeaf (LMean "x" None)) w [].
Definition comp (i : nat) b c1 c2 := Node i (KComp b) [] [c1; c2].
Definition mlist (i : nat) cs := Node i (KList true) [] cs.
Definition distribution (i : nat) g w c := Node i (KOp ODistribution [g] [g]) w [c].
Definition sliced (i : nat) c := Node i (KCustom "Mine") [] [c].

Ltac wf_step :=
  match goal with
  | |- True => exact I
  | |- forall v w, sum_and_count _ v w -> _ =>
      let E := fresh in intros ? ? (? & ? & ? & E & _); (discriminate E || (injection E; intros; subst; auto))
  | |- _ /\ _ => split
  | |- NoDup _ => repeat constructor; simpl; intuition discriminate
  | |- ~ _ => simpl; intuition discriminate
  | |- forall c, In c _ -> _ => simpl; intuition congruence
  | |- _ <> _ => discriminate
  | |- _ = _ => reflexivity
  end.
Ltac wf := cbv [cacheable fingerprintable acyclic no_custom valid_filters every built safe_mean unfiltered_mean fold_right
                fresh_splits mlist comp sum_x count_x mean_x distribution sliced flat_map oids app]; repeat wf_step.
Ltac wf_calls := repeat match goal with
  | |- Forall _ [] => constructor | |- Forall _ (_ :: _) => constructor
  | |- well_formed _ => cbv [well_formed c_metric c_split]
  | |- honest_keys _ _ => let H := fresh in intros ? H; simpl in H; (discriminate H || (injection H; intros; subst; split; [discriminate|reflexivity])) end;
  wf.

(** * C01 *)
(** Computing with the shared cache gives what computing every part afresh gives. *)
Theorem C01_cache_is_transparent_partial :
  forall V (S : sem V) (keq : ckey -> ckey -> bool), laws S ->
  (forall k1 k2, keq k1 k2 = true -> k1 = k2) ->
  forall m df split_by return_dataframe,
  cacheable m -> acyclic m -> fresh_splits [] split_by m ->
  fst (compute_on S keq m df split_by return_dataframe None None no_keys) = value S m df split_by return_dataframe.
Proof. intros. apply transparent; auto. Qed.
Print Assumptions C01_cache_is_transparent_partial.

(** Two parts share Sum("x"), one object occurs twice, a filter, a user metric sliced by g. *)
Definition ex_tree : metric :=
  mlist 0 [comp 1 BDiv (sum_x 2 []) (count_x 3 []); mean_x 4 []; distribution 5 "g" ["a"] (sum_x 2 []);
           Node 6 (KLeaf (LSum "missing")) [] []; comp 7 BMul (sum_x 2 ["a"]) (Const 3)].
Example C01_example : cacheable ex_tree /\ acyclic ex_tree /\ fresh_splits [] [] ex_tree /\
  fst (compute_on ex_sem ckey_eqb ex_tree ex_df [] false None None no_keys) =
    Ok (RL [RF [([], 3)]; RF [([], 3)];
            RF [([CStr "p"], 1 # 10); ([CStr "q"], 3 # 10); ([CStr "r"], 3 # 5)]; RF [([], 30)]]).
Proof.
  split; [|split; [|split]].
  - unfold ex_tree; wf.
  - unfold ex_tree; wf.
  - unfold ex_tree; wf.
  - vm_compute. reflexivity.
Qed.
Example C01_example_sliced :
  fst (compute_on ex_sem ckey_eqb (mlist 0 [sum_x 1 []; sliced 2 (sum_x 1 [])]) ex_df ["g"] false None None no_keys) =
    Ok (RL [RF [([CStr "p"], 3); ([CStr "q"], 3); ([CStr "r"], 6)]; RF [([CStr "p"], 3); ([CStr "q"], 3); ([CStr "r"], 6)]]).
Proof. vm_compute. reflexivity. Qed.

(** Without the restriction on composites of Sum(v) and Count(v) it fails: ratios with
    different filters on their parts ... *)
Theorem C01_filtered_ratio_refuted : exists m df,
  every built m /\ acyclic m /\ fresh_splits [] [] m /\ laws ex_sem /\
  fst (compute_on ex_sem ckey_eqb m df [] true None None no_keys) <> value ex_sem m df [] true.
Proof.
  exists (mlist 0 [comp 1 BDiv (sum_x 2 ["a"]) (count_x 3 ["a"]); comp 4 BDiv (sum_x 5 ["b"]) (count_x 6 ["b"])]), ex_df.
  split; [wf|]. split; [wf|]. split; [wf|]. split; [apply ex_laws|]. vm_compute. discriminate.
Qed.
Print Assumptions C01_filtered_ratio_refuted.
(** ... and other operators than division. *)
Theorem C01_sum_times_count_refuted : exists m df,
  every built m /\ every unfiltered_mean m /\ acyclic m /\ fresh_splits [] [] m /\ laws ex_sem /\
  fst (compute_on ex_sem ckey_eqb m df [] true None None no_keys) <> value ex_sem m df [] true.
Proof.
  exists (mlist 0 [comp 1 BMul (sum_x 2 []) (count_x 3 []); mean_x 4 []]), ex_df.
  split; [wf|]. split; [|split; [wf|split; [wf|split; [apply ex_laws|vm_compute; discriminate]]]].
  wf.
Qed.
Print Assumptions C01_sum_times_count_refuted.
(** ... nor if one object's children_return_dataframe differs ... *)
Theorem C01_children_return_dataframe_refuted : exists m df,
  every safe_mean m /\ every unfiltered_mean m /\ acyclic m /\ fresh_splits [] [] m /\ laws ex_sem /\
  fst (compute_on ex_sem ckey_eqb m df [] false None None no_keys) <> value ex_sem m df [] false.
Proof.
  exists (Node 0 (KList false) [] [Node 1 (KList false) [] [sum_x 2 []]; Node 3 (KList true) [] [sum_x 4 []]]), ex_df.
  split; [wf|]. split; [wf|]. split; [wf|]. split; [wf|]. split; [apply ex_laws|]. vm_compute. discriminate.
Qed.
(** ... nor if two user functions share a name template ... *)
Theorem C01_user_operators_refuted : exists m df,
  every safe_mean m /\ every unfiltered_mean m /\ acyclic m /\ fresh_splits [] [] m /\ laws ex_sem /\
  fst (compute_on ex_sem ckey_eqb m df [] true None None no_keys) <> value ex_sem m df [] true.
Proof.
  exists (mlist 0 [comp 1 (BUser 0 "f({}, {})") (sum_x 2 []) (Const 5); comp 4 (BUser 1 "f({}, {})") (sum_x 5 []) (Const 5)]), ex_df.
  split; [|split; [|split; [wf|split; [wf|split; [apply ex_laws|vm_compute; discriminate]]]]];
  wf.
Qed.
(** ... nor if keys are compared by hash and numbers -1 and -2 occur. *)
Theorem C01_hash_refuted : exists m df,
  cacheable m /\ acyclic m /\ fresh_splits [] [] m /\ laws ex_sem /\ collision_free ideal /\
  fst (compute_on ex_sem (keq_by_hash ideal) m df [] true None None no_keys) <> value ex_sem m df [] true.
Proof.
  exists (mlist 0 [comp 1 BMul (sum_x 2 []) (Const (-1)); comp 4 BMul (sum_x 5 []) (Const (-2))]), ex_df.
  split; [|split; [wf|split; [wf|split; [apply ex_laws|split; [apply ideal_collision_free|vm_compute; discriminate]]]]].
  wf.
Qed.
Print Assumptions C01_hash_refuted.
(** ... nor if a sliced metric contains a metric that splits by the same column again. *)
Theorem C01_split_again_refuted : exists m df,
  cacheable m /\ acyclic m /\ laws ex_sem /\
  fst (compute_on ex_sem ckey_eqb m df ["g"] true None None no_keys) <> value ex_sem m df ["g"] true.
Proof.
  exists (sliced 9 (mlist 0 [sum_x 1 []; distribution 2 "g" [] (sum_x 3 [])])), ex_df.
  split; [wf|]. split; [wf|]. split; [apply ex_laws|]. vm_compute. discriminate.
Qed.

(** * C02 *)
(** Metrics with equal fingerprints compute the same. *)
Theorem C02_fingerprint_sound_partial :
  forall V (S : sem V), laws S -> forall m1 m2, fingerprintable m1 -> fingerprintable m2 -> fp m1 = fp m2 ->
  forall df split_by return_dataframe, value S m1 df split_by return_dataframe = value S m2 df split_by return_dataframe.
Proof.
  intros V S L m1 m2 F1 F2 E df sb rdf. destruct (fp_sound S L m1 m2 F1 F2 E) as [D _].
  unfold value. rewrite D. reflexivity.
Qed.
(** Different objects with equal fingerprints. *)
Example C02_example :
  let m1 := comp 1 BDiv (sum_x 2 ["a"; "b"]) (count_x 3 ["b"; "a"]) in let m2 := mean_x 4 ["b"; "a"] in
  fingerprintable m1 /\ fingerprintable m2 /\ fp m1 = fp m2.
Proof.
  split; [|split; [|reflexivity]].
  - wf.
  - wf.
Qed.
Theorem C02_sum_times_count_refuted : exists m1 m2 df,
  every built m1 /\ every built m2 /\ laws ex_sem /\ fp m1 = fp m2 /\ value ex_sem m1 df [] true <> value ex_sem m2 df [] true.
Proof.
  exists (comp 1 BMul (sum_x 2 []) (count_x 3 [])), (mean_x 4 []), ex_df.
  split; [wf|]. split; [wf|]. split; [apply ex_laws|]. split; [reflexivity|]. vm_compute. discriminate.
Qed.
Print Assumptions C02_sum_times_count_refuted.
Theorem C02_filtered_composite_refuted : exists m1 m2 df,
  every built m1 /\ every built m2 /\ laws ex_sem /\ fp m1 = fp m2 /\ value ex_sem m1 df [] true <> value ex_sem m2 df [] true.
Proof.
  exists (Node 1 (KComp BDiv) ["a"] [sum_x 2 []; count_x 3 []]), (mean_x 4 []), ex_df.
  split; [wf|]. split; [wf|]. split; [apply ex_laws|]. split; [reflexivity|]. vm_compute. discriminate.
Qed.

(** * C03 *)
(** Keys that are equal for the dict agree in every component, if the hash of strings, tuples
    and fractions has no collisions and the integers are their own hash. *)
Theorem C03_equal_keys_partial :
  forall H (h : hashing H), collision_free h -> forall k1 k2, small_key k1 -> small_key k2 -> keq_by_hash h k1 k2 = true ->
  py (k_fp k1) = py (k_fp k2) /\ k_raw k1 = k_raw k2 /\ k_where k1 = k_where k2 /\
  k_split k1 = k_split k2 /\ k_slice k1 = k_slice k2.
Proof. intros. apply (hkey_inj h); auto. Qed.
Print Assumptions C03_equal_keys_partial.
Example C03_example : collision_free ideal /\
  small_key (CKey (fp0 (comp 1 BMul (sum_x 2 ["a"]) (Const 7))) (Some "key") ["a"] ["g"] [("h", CNum 3)]).
Proof.
  split; [apply ideal_collision_free|]. split.
  - simpl. repeat split; discriminate.
  - constructor; [|constructor]. split; [reflexivity|discriminate].
Qed.
(** Whatever the hash function: metrics that differ only in -1 / -2, and slices at -1 / -2. *)
Theorem C03_minus_one_refuted : forall H (h : hashing H), (forall x, heqb h x x = true) ->
  (exists m1 m2, fp m1 <> fp m2 /\ cacheable m1 /\ cacheable m2 /\
     keq_by_hash h (CKey (fp0 m1) None [] [] []) (CKey (fp0 m2) None [] [] []) = true) /\
  (forall f c, keq_by_hash h (CKey f None [] [] [(c, CNum (-1))]) (CKey f None [] [] [(c, CNum (-2))]) = true).
Proof.
  intros H h R. split.
  - exists (comp 1 BMul (sum_x 2 []) (Const (-1))), (comp 1 BMul (sum_x 2 []) (Const (-2))).
    split; [discriminate|]. split; [wf|].
    split; [wf|]. apply R.
  - intros f c. apply R.
Qed.
Print Assumptions C03_minus_one_refuted.

(** * C04 *)
(** However it ends, a call without cache_key leaves an empty cache and no keys in the tree, and
    does not touch other objects.  Nothing is assumed of the computations: any may raise. *)
Theorem C04_nothing_left_behind :
  forall V (S : sem V) keq i k w cs df split_by return_dataframe dict keys,
  let m := Node i k w cs in
  let st := snd (compute_on S keq m df split_by return_dataframe None dict keys) in
  cache st = [] /\ (forall j, In j (oids m) -> kof st j = None) /\ (forall j, ~ In j (oids m) -> kof st j = keys j).
Proof.
  intros. destruct (cleaned S keq i k w cs df split_by return_dataframe dict keys) as [H1 H2].
  split; [exact H1|]. split; [exact H2|]. intros j Hj. apply (run_keeps S keq m); exact Hj.
Qed.
Print Assumptions C04_nothing_left_behind.
Example C04_example_raises :
  let (r, st) := compute_on ex_sem ckey_eqb (comp 1 BMul (sum_x 2 []) (Node 3 (KLeaf (LSum "missing")) [] [])) ex_df [] true None None
                            (fun j => if Nat.eqb j 7 then Some (CKey (FNum 0) None [] [] []) else None) in
  r = Err "KeyError" /\ kof st 2 = None /\ kof st 7 <> None.
Proof. vm_compute. repeat split; discriminate. Qed.

(** * C05 *)
(** In any sequence of calls without cache_key, on any metrics that share objects in any way,
    every call returns what it would return alone. *)
Theorem C05_calls_are_independent_partial :
  forall V (S : sem V) keq, laws S -> (forall k1 k2, keq k1 k2 = true -> k1 = k2) ->
  forall l, Forall (fun c => c_key c = None) l -> Forall well_formed l ->
  history S keq l [] no_keys = map (expected S) l.
Proof. intros. apply history_no_key; auto. Qed.
Example C05_example :
  let l := [Call (distribution 5 "g" ["a"] (sum_x 2 [])) ex_df [] true None; Call (sum_x 2 []) ex_df [] true None;
            Call (Node 6 (KLeaf (LSum "missing")) [] []) ex_df [] true None; Call (sum_x 2 []) ex_df ["g"] true None] in
  Forall (fun c => c_key c = None) l /\ Forall well_formed l /\
  nth 1 (map (expected ex_sem) l) (Err "") = Ok (RF [([], 12)]).
Proof.
  split; [repeat constructor|]. split; [wf_calls|vm_compute; reflexivity].
Qed.
(** Not so after a call with a cache_key on an ancestor: its filter stays in the object. *)
Theorem C05_after_keyed_call_refuted :
  exists l, Forall well_formed l /\ (exists df, Forall (honest_keys (fun _ => df)) l) /\ c_key (last l (Call (Const 0) [] [] true (Some ""))) = None /\
  last (history ex_sem ckey_eqb l [] no_keys) (Err "") <> last (map (expected ex_sem) l) (Err "").
Proof.
  exists [Call (distribution 3 "g" ["a"] (mlist 0 [sum_x 1 []; sum_x 2 ["a"]])) ex_df [] true (Some "foo");
          Call (mlist 0 [sum_x 1 []; sum_x 2 ["a"]]) ex_df [] true None].
  split; [wf_calls|].
  split; [exists ex_df; wf_calls|].
  split; [reflexivity|]. vm_compute. discriminate.
Qed.
Print Assumptions C05_after_keyed_call_refuted.

(** * C06 *)
(** In any sequence of calls, with user keys (sharing one cache) or without, if equal keys mean
    equal data and no call is made on a part of a metric computed before, nor without split_by
    on a metric computed before with split_by, every call returns what it would return alone:
    whatever the split_by and filters of the other calls. *)
Theorem C06_user_keys_partial :
  forall V (S : sem V) keq, laws S -> (forall k1 k2, keq k1 k2 = true -> k1 = k2) ->
  forall (dfof : raw -> frame) l, Forall well_formed l -> Forall (honest_keys dfof) l -> ForallOrdPairs may_follow l ->
  history S keq l [] no_keys = map (expected S) l.
Proof. intros. apply history_fresh with dfof; auto. Qed.
Example C06_example :
  let l := [Call (sum_x 1 ["a"]) ex_df [] true (Some "foo"); Call (sum_x 2 []) ex_df [] true (Some "foo");
            Call (sum_x 2 []) ex_df ["g"] true (Some "foo"); Call (mean_x 4 ["a"]) [] [] true (Some "bar");
            Call (sum_x 5 ["a"]) ex_df [] true (Some "foo")] in
  Forall well_formed l /\ Forall (honest_keys (fun r => if String.eqb r "foo" then ex_df else [])) l /\ ForallOrdPairs may_follow l /\
  history ex_sem ckey_eqb l [] no_keys =
  [Ok (RF [([], 10)]); Ok (RF [([], 12)]); Ok (RF [([CStr "p"], 3); ([CStr "q"], 3); ([CStr "r"], 6)]); Ok (RF [([], 0)]); Ok (RF [([], 10)])].
Proof.
  split; [wf_calls|].
  split; [wf_calls|].
  split; [|vm_compute; reflexivity].
  repeat match goal with |- ForallOrdPairs _ _ => constructor | |- Forall _ _ => constructor
         | |- may_follow _ _ => split; simpl; intuition congruence end.
Qed.
(** A metric computed after a metric that contains it, same key, same data: the split_by of the
    first call stays in the object. *)
Theorem C06_part_computed_later_refuted :
  exists l, Forall well_formed l /\ Forall (honest_keys (fun _ => ex_df)) l /\
  history ex_sem ckey_eqb l [] no_keys <> map (expected ex_sem) l /\
  last (history ex_sem ckey_eqb l [] no_keys) (Err "") = Ok (RF [([CStr "p"], 3); ([CStr "q"], 3); ([CStr "r"], 6)]) /\
  last (map (expected ex_sem) l) (Err "") = Ok (RF [([], 12)]).
Proof.
  exists [Call (distribution 3 "g" [] (sum_x 1 [])) ex_df [] true (Some "foo"); Call (sum_x 1 []) ex_df [] true (Some "foo")].
  split; [wf_calls|].
  split; [wf_calls|].
  vm_compute. repeat split; discriminate.
Qed.
Print Assumptions C06_part_computed_later_refuted.
Theorem C06_split_then_unsplit_refuted :
  exists m, let l := [Call m ex_df ["g"] true (Some "foo"); Call m ex_df [] true (Some "foo")] in
  Forall well_formed l /\ Forall (honest_keys (fun _ => ex_df)) l /\
  history ex_sem ckey_eqb l [] no_keys <> map (expected ex_sem) l.
Proof.
  exists (sum_x 1 []). split; [wf_calls|].
  split; [wf_calls|]. vm_compute. discriminate.
Qed.
Print Assumptions C06_split_then_unsplit_refuted.

(** * C08 *)
(** A MetricList returns, in order, exactly the results of those children that can be computed,
    as if each were computed alone. *)
Theorem C08_list_isolates_failures :
  forall V (S : sem V) keq, laws S -> (forall k1 k2, keq k1 k2 = true -> k1 = k2) ->
  forall i w cs df df' split_by,
  let m := Node i (KList true) w cs in
  cacheable m -> acyclic m -> fresh_splits [] split_by m -> query S w df = Ok df' ->
  fst (compute_on S keq m df split_by false None None no_keys) =
  Ok (RL (flat_map (fun c => match fst (compute_on S keq c df' split_by true None None no_keys) with
                             | Ok r => [r] | Err _ => [] end) cs)).
Proof. intros. apply list_value; auto. Qed.
(** Whatever the children do, a MetricList whose own filter is valid does not raise. *)
Theorem C08_list_never_raises :
  forall V (S : sem V) keq i crd w cs df df' split_by, query S w df = Ok df' ->
  exists l, fst (compute_on S keq (Node i (KList crd) w cs) df split_by false None None no_keys) = Ok (RL l).
Proof. intros V S keq i crd w cs df df' sb H. apply (list_never_raises S keq i crd w cs df df' sb H). Qed.
Example C08_example :
  let m := mlist 0 [comp 1 BMul (sum_x 2 []) (Node 3 (KLeaf (LSum "missing")) [] []); sum_x 2 []; Node 3 (KLeaf (LSum "missing")) [] []; count_x 4 []] in
  acyclic m /\ fresh_splits [] [] m /\
  fst (compute_on ex_sem ckey_eqb m ex_df [] false None None no_keys) = Ok (RL [RF [([], 12)]; RF [([], 4)]]).
Proof. split; [wf|]. split; [wf|]. vm_compute. reflexivity. Qed.

(** * C23 *)
(** A filter is the same as filtering the data first. *)
Theorem C23_filter_is_prefilter_partial :
  forall V (S : sem V) keq, laws S -> (forall k1 k2, keq k1 k2 = true -> k1 = k2) ->
  forall i k w cs df split_by return_dataframe,
  let m := Node i k w cs in let unfiltered := Node i k [] cs in
  cacheable m -> acyclic m -> fresh_splits [] split_by m ->
  fst (compute_on S keq m df split_by return_dataframe None None no_keys) =
  rbind (query S w df) (fun df' => fst (compute_on S keq unfiltered df' split_by return_dataframe None None no_keys)).
Proof. intros. apply where_prefilter; auto. Qed.
(** Several filters, in any order and with repetitions, are their conjunction; nested filters compose. *)
Theorem C23_filters_are_a_conjunction :
  forall V (S : sem V) w df, existsb (qbad S) w = false ->
  exists df', query S w df = Ok df' /\ forall r, In r df' <-> In r df /\ forall c, In c w -> q S c r = true.
Proof.
  intros V S w df H. unfold query. rewrite H. eexists. split; [reflexivity|]. intros r.
  rewrite filter_In, forallb_forall. tauto.
Qed.
Theorem C23_filter_order :
  forall V (S : sem V) w1 w2 df, (forall c, In c w1 <-> In c w2) -> query S w1 df = query S w2 df.
Proof. intros. apply query_same. auto. Qed.
Theorem C23_filters_compose :
  forall V (S : sem V) w1 w2 df, query S (w1 ++ w2) df = rbind (query S w1 df) (query S w2).
Proof. intros. apply query_add. Qed.
Print Assumptions C23_filters_compose.
Example C23_example :
  let m := distribution 5 "g" ["a"] (sum_x 2 ["b"]) in
  cacheable m /\ acyclic m /\ fresh_splits [] [] m /\
  fst (compute_on ex_sem ckey_eqb m ex_df [] true None None no_keys) = Ok (RF [([CStr "r"], 1)]).
Proof. split; [wf|]. split; [wf|]. split; [wf|]. vm_compute. reflexivity. Qed.

(** * C46 *)
(** Pushing the filters to the leaves does not change the value, if there are no user metrics
    that slice the data and every filter is valid; afterwards only leaves have filters. *)
Theorem C46_push_filters_partial :
  forall V (S : sem V) m, every built m -> no_custom m -> valid_filters S m ->
  forall df split_by return_dataframe,
  value S (push_filters m) df split_by return_dataframe = value S m df split_by return_dataframe.
Proof. intros. apply push_value; auto. Qed.
Print Assumptions C46_push_filters_partial.
Theorem C46_only_leaves_filtered :
  forall m, every (fun _ _ w children => children <> [] -> w = []) (push_filters m).
Proof. intros. apply push_down_leaves. Qed.
Example C46_example :
  let m := Node 0 (KList true) ["b"] [distribution 5 "g" ["a"] (sum_x 2 ["b"]); sum_x 1 []; Node 3 (KComp BMul) ["a"] [sum_x 1 []; Const 2]] in
  every built m /\ no_custom m /\ valid_filters ex_sem m /\
  push_filters m = mlist 0 [distribution 5 "g" [] (sum_x 2 ["a"; "b"]); sum_x 1 ["b"]; comp 3 BMul (sum_x 1 ["a"; "b"]) (Const 2)].
Proof. split; [wf|]. split; [wf|]. split; [wf|]. vm_compute. reflexivity. Qed.
(** With an invalid filter a MetricList raises, but with the filter in the leaves it drops them. *)
Theorem C46_invalid_filter_refuted : exists m df, every built m /\ no_custom m /\
  value ex_sem (push_filters m) df [] true <> value ex_sem m df [] true.
Proof.
  exists (Node 0 (KList true) ["bad"] [sum_x 1 []]), ex_df. split; [wf|]. split; [wf|]. vm_compute. discriminate.
Qed.

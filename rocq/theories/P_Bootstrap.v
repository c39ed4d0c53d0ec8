(** C37, C38, C39, C42, C52, C54: Bootstrap and PoissonBootstrap. *)
From Coq Require Import Reals List Bool String Ascii Arith NArith Lia Lra.
From Verif Require L_SqlText.
From Verif Require Import M_Num M_Frame M_Ops M_Slices M_Leaf M_Jackknife M_SqlText M_SqlFilter M_Bootstrap M_BootCache S_Ops S_Slices S_Jackknife S_Bootstrap L_Frame L_Slices L_Jackknife L_Jackknife3 L_Bootstrap L_Bootstrap2 L_Bootstrap3 L_BootCache.
Import ListNotations.
Open Scope list_scope.
Open Scope nat_scope.

(** C37, for every metric built from Sum, Count, Max, Min with filters, arithmetic and operations, every
    table and every draw: the metric on the resampled preaggregated data (left) is the metric on the
    resampled rows (right).  [w0] are the filters of the Bootstrap and its ancestors, which the
    data has already passed.  Partial: no filter empties a slice of the resample, the columns of
    the preaggregated data have distinct names, grouping columns have no null. *)
Theorem C37_preaggregation_partial : forall keep s unit extra df w0 t ls ds,
  has_labels (s ++ unit :: extra) df ->
  (forall l, In l ls <-> In l (pushed_leaves w0 t)) -> distinct_names ls ->
  incl (extra_columns t) extra -> summable t df -> Forall (fun r => keep_all keep w0 r = true) df ->
  no_slice_emptied keep t s (sample_by_unit s unit df ds) (sample_by_unit s unit df ds) ->
  compute_on (pre_tree w0 t) s (sample_preaggregated s unit extra (pre_df keep ls (s ++ unit :: extra) df) ds) =
  compute_on (plain_tree keep t) s (sample_by_unit s unit df ds).
Proof.
  intros keep s unit extra df w0 t ls ds HL Hls HN Hx HG HW HC. apply preaggregation; auto.
  intros l. apply Hls.
Qed.
Print Assumptions C37_preaggregation_partial.

Fixpoint unfiltered (t : btree) : bool :=
  match t with
  | BLeaf _ _ w => match w with [] => true | _ => false end
  | BWhere w t' => match w with [] => unfiltered t' | _ => false end
  | BConst _ t' | BOp _ _ _ t' => unfiltered t'
  | BBinary _ a b => unfiltered a && unfiltered b
  end.
Lemma unfiltered_leaves t : unfiltered t = true -> Forall (fun l => pwhere l = []) (pushed_leaves [] t).
Proof.
  induction t as [k v w|w t IH|f t IH|f a IHa b IHb|extra idx op t IH]; simpl; intros H; auto.
  - destruct w; [|discriminate]. constructor; auto.
  - destruct w; [|discriminate]. auto.
  - apply andb_true_iff in H. destruct H. apply Forall_app. auto.
Qed.
Lemma filter_nil_keep keep (l : table) : filter (keep_all keep []) l = l.
Proof. induction l; simpl; congruence. Qed.
Lemma unfiltered_not_emptied keep t : forall cols sample, unfiltered t = true -> no_slice_emptied keep t cols sample sample.
Proof.
  induction t as [k v w|w t IH|f t IH|f a IHa b IHb|extra idx op t IH]; simpl; intros cols sample H; auto.
  - destruct w; [|discriminate]. right. intros r Hr. exists r. auto.
  - destruct w; [|discriminate]. rewrite filter_nil_keep. auto.
  - apply andb_true_iff in H. destruct H. auto.
Qed.
(** Without filters inside, and for column names that sanitizing leaves alone, there is no other
    condition. *)
Theorem C37_without_filters : forall keep s unit extra df t ls ds,
  has_labels (s ++ unit :: extra) df -> unfiltered t = true ->
  (forall l, In l ls <-> In l (pushed_leaves [] t)) -> Forall (fun l => tidy_name (pvar l) = true) ls ->
  incl (extra_columns t) extra -> summable t df ->
  compute_on (pre_tree [] t) s (sample_preaggregated s unit extra (pre_df keep ls (s ++ unit :: extra) df) ds) =
  compute_on (plain_tree keep t) s (sample_by_unit s unit df ds).
Proof.
  intros keep s unit extra df t ls ds HL HU Hls HT Hx HG. apply C37_preaggregation_partial; auto.
  - apply unfiltered_names. rewrite Forall_forall in *. intros l Hl. split; auto.
    pose proof (unfiltered_leaves t HU) as F. rewrite Forall_forall in F. apply F. now apply Hls.
  - apply Forall_forall. auto.
  - now apply unfiltered_not_emptied.
Qed.
(** Without split_by and operations filters are no problem. *)
Lemma unsplit_not_emptied keep t : forall d sample, extra_columns t = [] -> no_slice_emptied keep t [] d sample.
Proof.
  induction t as [k v w|w t IH|f t IH|f a IHa b IHb|extra idx op t IH]; simpl; intros d sample H; auto.
  - apply app_eq_nil in H. destruct H. auto.
  - apply app_eq_nil in H. destruct H as [-> H]. simpl. auto.
Qed.
Theorem C37_unsplit : forall keep unit df w0 t ls ds,
  has_labels [unit] df -> extra_columns t = [] ->
  (forall l, In l ls <-> In l (pushed_leaves w0 t)) -> distinct_names ls ->
  summable t df -> Forall (fun r => keep_all keep w0 r = true) df ->
  compute_on (pre_tree w0 t) [] (sample_preaggregated [] unit [] (pre_df keep ls [unit] df) ds) =
  compute_on (plain_tree keep t) [] (sample_by_unit [] unit df ds).
Proof.
  intros keep unit df w0 t ls ds HL HE Hls HN HG HW.
  apply (C37_preaggregation_partial keep [] unit [] df w0 t ls ds); auto.
  - rewrite HE. apply incl_refl.
  - now apply unsplit_not_emptied.
Qed.

(** *** Examples and refutations *)
Definition ex_row (labels : list (string * string)) (x : R) : drow :=
  Row (fun c => match find (fun p => String.eqb (fst p) c) labels with Some p => Some (snd p) | None => None end)
      (fun c => if String.eqb c "x" then Fin x else NaN).
Definition ex_keep (q : string) (r : drow) : bool :=
  if String.eqb q "u == 1" then match lab r "u" with Some y => String.eqb y "1" | None => false end
  else if String.eqb q "a | b" then true else false.
Definition ex_df := [ex_row [("g", "a"); ("u", "1")] 1; ex_row [("g", "a"); ("u", "2")] 2; ex_row [("g", "b"); ("u", "1")] 3]%string.
(** PercentChange-like example: a ratio to total by group, three rows, a draw with repetition. *)
Example C37_example :
  let t := BBinary xdiv (BLeaf KSum "x" []) (BLeaf KCount "x" []) in
  has_labels ["g"; "u"]%string ex_df /\ unfiltered t = true /\ Forall (fun l => tidy_name (pvar l) = true) (pushed_leaves [] t) /\
  summable t ex_df /\ List.length (sample_by_unit ["g"]%string "u" ex_df [[1; 1]; [0]]) = 3.
Proof.
  repeat split; try (repeat constructor; simpl; intros; intuition (subst; discriminate)).
Qed.
(** A filter can leave a slice of the resample without rows: the metric on the rows has no such
    slice, the preaggregated one has it with the value 0. *)
Theorem C37_emptied_slice_refuted : exists keep s unit df t ds,
  has_labels (s ++ [unit]) df /\ distinct_names (pushed_leaves [] t) /\ summable t df /\
  compute_on (pre_tree [] t) s (sample_preaggregated s unit [] (pre_df keep (pushed_leaves [] t) (s ++ [unit]) df) ds) <>
  compute_on (plain_tree keep t) s (sample_by_unit s unit df ds).
Proof.
  exists ex_keep, ["g"]%string, "u"%string, ex_df, (BLeaf KSum "x" ["u == 1"]%string), [[1; 1]; [0]].
  split; [|split; [|split]].
  - repeat constructor; simpl; intros; intuition (subst; discriminate).
  - intros l l' [<-|[]] [<-|[]] _. tauto.
  - repeat constructor; discriminate.
  - vm_compute. discriminate.
Qed.
(** Two filters that differ only in characters that are all replaced by an underscore: the columns
    collide and one metric reads the other's column, whatever the order of the leaves. *)
Definition C52_colliding := BBinary xsub (BLeaf KSum "x" ["a | b"]%string) (BLeaf KSum "x" ["a & b"]%string).
Theorem C52_names_refuted : exists keep unit df ds,
  has_labels [unit] df /\ summable C52_colliding df /\
  forall ls, ls = pushed_leaves [] C52_colliding \/ ls = rev (pushed_leaves [] C52_colliding) ->
  compute_on (pre_tree [] C52_colliding) [] (sample_preaggregated [] unit [] (pre_df keep ls [unit] df) ds) <>
  compute_on (plain_tree keep C52_colliding) [] (sample_by_unit [] unit df ds).
Proof.
  exists ex_keep, "u"%string, [ex_row [("u", "1")]%string 1], [[0]].
  split; [|split].
  - repeat constructor; simpl; intros; intuition (subst; discriminate).
  - repeat constructor; discriminate.
  - intros ls [->| ->]; vm_compute; intros H; injection H as H; lra.
Qed.
(** Names are distinct for metrics without filters on columns with ordinary names. *)
Theorem C52_names_partial : forall ls,
  Forall (fun l => pwhere l = [] /\ tidy_name (pvar l) = true) ls -> distinct_names ls.
Proof. exact unfiltered_names. Qed.
Print Assumptions C52_names_partial.
Example C52_example : Forall (fun l => pwhere l = [] /\ tidy_name (pvar l) = true) [PLeaf KSum "x" []; PLeaf KMax "page_views" []; PLeaf KCount "x" []].
Proof. repeat constructor. Qed.
(** A row without a label in the column of an operation is dropped for all metrics, also for those
    beside the operation. *)
Theorem C37_null_label_refuted : exists keep unit extra df t ls ds,
  has_labels [unit] df /\ (forall l, In l ls <-> In l (pushed_leaves [] t)) /\ distinct_names ls /\
  extra_columns t = extra /\ summable t df /\ unfiltered t = true /\
  compute_on (pre_tree [] t) [] (sample_preaggregated [] unit extra (pre_df keep ls (unit :: extra) df) ds) <>
  compute_on (plain_tree keep t) [] (sample_by_unit [] unit df ds).
Proof.
  exists ex_keep, "u"%string, ["g"]%string, [ex_row [("g", "a"); ("u", "1")]%string 1; ex_row [("u", "1")]%string 2],
    (BBinary (fun a _ => a) (BLeaf KSum "x" []) (BOp ["g"]%string [] (fun n c => Some (groupby_level n xsum c)) (BLeaf KSum "x" []))),
    [PLeaf KSum "x" []], [[0]].
  repeat split; try (repeat constructor; simpl; intros; intuition (subst; discriminate)).
  - simpl. tauto.
  - simpl. tauto.
  - destruct H as [<-|[]]; destruct H0 as [<-|[]]; auto.
  - destruct H as [<-|[]]; destruct H0 as [<-|[]]; auto.
  - destruct H as [<-|[]]; destruct H0 as [<-|[]]; auto.
  - destruct H as [<-|[]]; destruct H0 as [<-|[]]; auto.
  - vm_compute. intros H. injection H as H. lra.
Qed.

(** C38: multiplying the preaggregated sums and counts of a unit by its weight and dropping units of
    weight 0 (left) gives what repeating the preaggregated rows of the unit gives (right). *)
Theorem C38_weights_are_repetitions : forall keep s unit extra df w0 t ls ks ws,
  has_labels (s ++ unit :: extra) df -> distinct_names ls -> incl (pushed_leaves w0 t) ls ->
  Forall (fun l => has_letter (pvar l)) ls ->
  Forall (fun l => pk l = KSum -> Forall (fun r => no_inf (val r (pvar l))) df) ls ->
  let data := pre_df keep ls (s ++ unit :: extra) df in
  compute_on (pre_tree w0 t) s (weigh_units (s ++ [unit]) ks ws data) =
  compute_on (pre_tree w0 t) s (rows_of_units (s ++ [unit]) (repeat_by ks ws) data).
Proof. intros. cbn zeta. apply weigh_tree; auto. Qed.
(** And the whole of PoissonBootstrap's preaggregation: same value as repeating the rows of the
    units.  Partial for the same reasons as C37. *)
Theorem C38_poisson_preaggregation_partial : forall keep s unit extra df w0 t ls ws,
  has_labels (s ++ unit :: extra) df ->
  (forall l, In l ls <-> In l (pushed_leaves w0 t)) -> distinct_names ls -> Forall (fun l => has_letter (pvar l)) ls ->
  incl (extra_columns t) extra -> summable t df -> Forall (fun r => keep_all keep w0 r = true) df ->
  no_slice_emptied keep t s (poisson_units s unit df ws) (poisson_units s unit df ws) ->
  compute_on (pre_tree w0 t) s (poisson_preaggregated s unit extra (pre_df keep ls (s ++ unit :: extra) df) ws) =
  compute_on (plain_tree keep t) s (poisson_units s unit df ws).
Proof. intros. now apply poisson_preaggregation. Qed.
Print Assumptions C38_poisson_preaggregation_partial.
(** Max and Min columns are not touched, Sum and Count columns are multiplied. *)
Theorem C38_which_columns : forall l w r, has_letter (pvar l) ->
  val (weigh_row w r) (colname l) =
  match pk l with KSum | KCount => xmul (val r (colname l)) (Fin (INR w)) | KMax | KMin => val r (colname l) end.
Proof. intros l w r H. simpl. rewrite multiplied_colname by auto. destruct (pk l); reflexivity. Qed.
Example C38_example : has_letter "x" /\ poisson_units ["g"]%string "u" ex_df [2; 0; 1] = [nth 0 ex_df (ex_row [] 0); nth 0 ex_df (ex_row [] 0); nth 2 ex_df (ex_row [] 0)].
Proof. split; [exists "x"%char; split; [left; reflexivity|split; [reflexivity|discriminate]]|reflexivity]. Qed.

(** C39: with or without reuse the estimates are, draw by draw, the child computed on the data of
    that draw (draws on which it fails are skipped); the cache may have right entries before. *)
Theorem C39_reuse_is_right : forall (T V D : Type) (child : T -> option V) (key : D -> sample_key) (data : D -> T) use_cache cache draws,
  (forall d d', key d = key d' -> data d = data d') ->
  (forall d v, cached (key d) cache = Some v -> child (data d) = Some v) ->
  let estimates := fst (compute_on_samples child cache (yield_samples use_cache key data [] draws)) in
  estimates = flat_map (fun d => match child (data d) with Some v => [v] | None => [] end) draws /\
  ((forall d, In d draws -> child (data d) <> None) -> List.length estimates = List.length draws).
Proof.
  intros T V D child key data use_cache cache draws K R estimates.
  assert (E : estimates = wanted child data draws).
  { unfold estimates. destruct use_cache; [apply reuse; auto; intros d []|apply no_reuse]. }
  split; [exact E|]. intros F. rewrite E. now apply wanted_all.
Qed.
Print Assumptions C39_reuse_is_right.
(** Bootstrap: the key is the tuple of drawn units; PoissonBootstrap: the weights. *)
Theorem C39_bootstrap : forall (V : Type) (child : table -> option V) s unit df use_cache (draws : list (list (list string))),
  fst (compute_on_samples child [] (yield_samples use_cache (fun ks => ks) (fun ks => rows_of_units (s ++ [unit]) ks df) [] draws)) =
  flat_map (fun ks => match child (rows_of_units (s ++ [unit]) ks df) with Some v => [v] | None => [] end) draws.
Proof.
  intros. apply (C39_reuse_is_right table V _ child (fun ks => ks) (fun ks => rows_of_units (s ++ [unit]) ks df)).
  - intros d d' E. cbn beta in *. congruence.
  - discriminate.
Qed.
Lemma label_of_N_inj a b : of_chars (str_of_N a) = of_chars (str_of_N b) -> a = b.
Proof. intros H. apply L_SqlText.str_of_N_inj. apply (f_equal to_chars) in H. now rewrite !of_to in H. Qed.
Lemma weights_key_inj a b : weights_key a = weights_key b -> a = b.
Proof.
  revert b. induction a as [|x a IH]; intros [|y b] H; try discriminate; auto. simpl in H. injection H as H1 H2.
  f_equal; auto. apply Nat2N.inj. now apply label_of_N_inj.
Qed.
Theorem C39_poisson : forall (V : Type) (child : table -> option V) s unit df use_cache (draws : list (list nat)),
  fst (compute_on_samples child [] (yield_samples use_cache weights_key (poisson_units s unit df) [] draws)) =
  flat_map (fun ws => match child (poisson_units s unit df ws) with Some v => [v] | None => [] end) draws.
Proof.
  intros. apply (C39_reuse_is_right table V _ child weights_key (poisson_units s unit df)).
  - intros d d' E. now rewrite (weights_key_inj _ _ E).
  - discriminate.
Qed.
Example C39_example :
  fst (compute_on_samples (fun d : nat => if Nat.eqb d 7 then None else Some (d * d)) []
    (yield_samples true (fun d => [[of_chars (str_of_N (N.of_nat d))]]) (fun d => d) [] [3; 7; 3; 4; 7])) = [9; 9; 16].
Proof. vm_compute. reflexivity. Qed.
(** Two Bootstraps of the same metric with different unit columns share one cache: the second gets
    estimates computed for the first. *)
Definition sum_x (d : table) : option rframe := compute_on (TLeaf (agg_sum "x")) [] d.
Theorem C39_other_unit_refuted : exists df unit unit' (draws draws' : list (list (list string))),
  let run c u ds := compute_on_samples sum_x c (yield_samples true (fun ks => ks) (fun ks => rows_of_units [u] ks df) [] ds) in
  fst (run (snd (run [] unit draws)) unit' draws') <>
  flat_map (fun ks => match sum_x (rows_of_units [unit'] ks df) with Some v => [v] | None => [] end) draws'.
Proof.
  exists [ex_row [("u", "1"); ("v", "2")]%string 1; ex_row [("u", "2"); ("v", "1")]%string 3], "u"%string, "v"%string,
    [[["1"]; ["1"]]]%string, [[["1"]; ["1"]]]%string.
  vm_compute. intros H. injection H as H. lra.
Qed.
(** So do a Bootstrap and a PoissonBootstrap with the same integer units: drawn units 1, 2, 1 and weights 1, 2, 1. *)
Theorem C39_weights_as_units_refuted : exists df unit (draws : list (list (list string))) (wss : list (list nat)),
  let boot c := compute_on_samples sum_x c (yield_samples true (fun ks => ks) (fun ks => rows_of_units [unit] ks df) [] draws) in
  let poisson c := compute_on_samples sum_x c (yield_samples true weights_key (poisson_units [] unit df) [] wss) in
  fst (poisson (snd (boot []))) <> flat_map (fun ws => match sum_x (poisson_units [] unit df ws) with Some v => [v] | None => [] end) wss.
Proof.
  exists [ex_row [("u", "1")]%string 1; ex_row [("u", "2")]%string 3; ex_row [("u", "3")]%string 5], "u"%string,
    [[["1"]; ["2"]; ["1"]]]%string, [[1; 2; 1]].
  vm_compute. intros H. injection H as H. lra.
Qed.

(** C42: in mixed mode the batches have together exactly n_replicates resamples, at most batch_size
    at a time. *)
Theorem C42_batches : forall (V : Type) (resample : nat -> nat -> V) n batch_size, batch_size <> 0 ->
  List.length (batch_results resample n batch_size) = n /\ Forall (fun m => 1 <= m <= batch_size) (batches n batch_size).
Proof.
  intros V resample n b H. split; [now apply batch_results_length|]. apply Forall_forall. intros m. now apply batches_small.
Qed.
Print Assumptions C42_batches.
(** Every resample is one (batch, number) pair and no pair is used twice: a query that draws with
    RAND() draws separately for each. *)
Theorem C42_own_draws : forall (V : Type) (resample : nat -> nat -> V) n batch_size, batch_size <> 0 ->
  exists pairs, NoDup pairs /\ List.length pairs = n /\ batch_results resample n batch_size = List.map (fun p => resample (fst p) (snd p)) pairs.
Proof.
  intros V resample n b H. exists (batch_results pair n b). split; [apply pairs_distinct|]. split; [now apply batch_results_length|apply batch_results_pairs].
Qed.
Example C42_example : batch_results pair 7 3 = [(0, 1); (0, 2); (0, 3); (1, 1); (1, 2); (1, 3); (2, 1)].
Proof. reflexivity. Qed.
(** But the PoissonBootstrap with a unit draws by a hash: all full batches are the same resamples. *)
Lemma batch_repeat {U} (f : nat -> U) m b : forall s, List.concat (List.map (fun bs => List.map f (seq 1 (snd bs))) (combine (seq s (List.length (repeat b m))) (repeat b m))) = List.concat (repeat (List.map f (seq 1 b)) m).
Proof. induction m as [|m IH]; intros s; simpl; auto. now rewrite IH. Qed.
Theorem C42_hashed_batches_refuted : forall (U : Type) (fingerprint : string -> U) group_and_unit m batch_size, batch_size <> 0 ->
  batch_results (fun _ i => hashed_uniform fingerprint group_and_unit i) (m * batch_size) batch_size =
  List.concat (repeat (List.map (hashed_uniform fingerprint group_and_unit) (seq 1 batch_size)) m).
Proof.
  intros U fp gu m b H. unfold batch_results.
  assert (E : batches (m * b) b = repeat b m).
  { unfold batches. rewrite Nat.div_mul, Nat.mod_mul by auto. simpl. apply app_nil_r. }
  rewrite E. apply (batch_repeat (hashed_uniform fp gu)).
Qed.

(** C54: the hash is of the concatenated labels, without separators: different units in different
    resamples, and different (group, unit) pairs in the same resample, share their random number. *)
Theorem C54_concatenation_refuted : forall (U : Type) (fingerprint : string -> U),
  hashed_uniform fingerprint ["1"]%string 11 = hashed_uniform fingerprint ["11"]%string 1 /\
  (forall i, hashed_uniform fingerprint ["a"; "b1"]%string i = hashed_uniform fingerprint ["ab"; "1"]%string i).
Proof. intros U fp. split; [reflexivity|]. intros i. reflexivity. Qed.
(** Labels of the same lengths do not collide: then the texts that are hashed are different. *)
Lemma append_inj a b c d : String.length a = String.length c -> append a b = append c d -> a = c /\ b = d.
Proof.
  revert c. induction a as [|x a IH]; intros [|y c] L H; try discriminate; auto.
  simpl in *. injection H as -> H. injection L as L. destruct (IH _ L H) as [-> ->]. auto.
Qed.
Theorem C54_equal_widths_partial : forall g g' i i', List.map String.length g = List.map String.length g' ->
  concat_labels (g ++ [of_chars (str_of_N (N.of_nat i))]) = concat_labels (g' ++ [of_chars (str_of_N (N.of_nat i'))]) -> g = g' /\ i = i'.
Proof.
  assert (A0 : forall t, append t EmptyString = t) by (induction t; simpl; congruence).
  induction g as [|a g IH]; intros [|b g'] i i' L H; try discriminate.
  - split; auto. cbn [app concat_labels fold_right] in H. rewrite !A0 in H. apply Nat2N.inj. now apply label_of_N_inj.
  - simpl in L. injection L as L1 L2. cbn [app concat_labels fold_right] in H. apply append_inj in H; auto. destruct H as [-> H].
    destruct (IH g' i i' L2 H) as [-> ->]. auto.
Qed.
Example C54_example : List.map String.length ["g1"; "u07"]%string = List.map String.length ["g2"; "u10"]%string.
Proof. reflexivity. Qed.

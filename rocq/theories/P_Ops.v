(** C24-C27, C29-C32: operations on the child's result. *)
From Coq Require Import Reals List Bool String Arith Lra Permutation Sorted.
From Verif Require Import M_Num M_Frame M_Ops M_NxxFloat S_Ops L_Frame L_OpsA L_OpsB L_OpsC.
Import ListNotations.
Open Scope string_scope.
Open Scope list_scope.
Open Scope R_scope.

(** ** C24 Distribution *)
Theorem C24_sums_to_one :
  forall n g children, finite_slice n g children -> total n g children <> 0 ->
  total n g (distribution n children) = 1.
Proof. exact distribution_sums_to_one. Qed.
Print Assumptions C24_sums_to_one.
(** Row by row: same index, value divided by the total of the slice, missing stays missing. *)
Theorem C24_proportional :
  forall n g children, finite_slice n g children -> total n g children <> 0 ->
  Forall2 (fun r r' => fst r' = fst r /\ (forall v, snd r = Fin v -> snd r' = Fin (v / total n g children)) /\
                       (snd r = NaN -> snd r' = NaN))
    (group n g children) (group n g (distribution n children)).
Proof. exact distribution_rows. Qed.
Theorem C24_same_index :
  forall n children, List.map fst (distribution n children) = List.map fst children.
Proof. exact distribution_index. Qed.
(** With a total of 0 there are no numbers in the result. *)
Theorem C24_zero_total :
  forall n g children r, finite_slice n g children -> total n g children = 0 ->
  In r (group n g (distribution n children)) -> snd r = NaN \/ snd r = PInf \/ snd r = NInf.
Proof. exact distribution_zero_total. Qed.

Definition ex_child : list (list string * num) :=
  [(["us"; "a"], Fin 3); (["us"; "b"], Fin 1); (["us"; "c"], NaN); (["uk"; "a"], Fin 5)].
Example C24_example : finite_slice 1 ["us"] ex_child /\ total 1 ["us"] ex_child <> 0 /\ nonneg_slice 1 ["us"] ex_child.
Proof.
  assert (vals 1 ["us"] ex_child = [Fin 3; Fin 1; NaN]) as E by reflexivity.
  unfold nonneg_slice, finite_slice, total, nums. rewrite E. simpl.
  repeat split; repeat constructor; try discriminate; lra.
Qed.

(** ** C25 CumulativeDistribution *)
(** However sort_values orders the rows (by labels or values, ascending or not, ties anyhow):
    every value is the share of the rows up to it, values never decrease, the last is 1. *)
Theorem C25_sorted :
  forall n srt g children,
  (forall l, Permutation (srt l) l) -> nonneg_slice n g children ->
  let out := group n g (cumulative_distribution n (BySort srt) children) in
  let d := group n g (srt (distribution n children)) in
  List.map fst out = List.map fst d /\
  (forall i k v, nth_error d i = Some (k, Fin v) ->
     nth_error out i = Some (k, Fin (Rsum (finite_values (List.map snd (firstn (S i) d)))))) /\
  StronglySorted Rle (finite_values (List.map snd out)) /\ last (finite_values (List.map snd out)) 0 = 1.
Proof. exact cumdist_sorted. Qed.
Print Assumptions C25_sorted.
(** With a custom order that contains every label that has a value. *)
Theorem C25_custom_order :
  forall n order g children, NoDup order -> nonneg_slice n g children ->
  (forall k v, In (k, Fin v) (group n g children) -> exists o, In o order /\ firstn 1 (skipn n k) = [o]) ->
  let out := group n g (cumulative_distribution n (ByOrder order) children) in
  let d := group n g (reindex_order n order (distribution n children)) in
  (forall i k v, nth_error d i = Some (k, Fin v) ->
     nth_error out i = Some (k, Fin (Rsum (finite_values (List.map snd (firstn (S i) d)))))) /\
  List.map fst out = List.map fst d /\
  StronglySorted Rle (finite_values (List.map snd out)) /\ last (finite_values (List.map snd out)) 0 = 1.
Proof. exact cumdist_ordered. Qed.
(** The labels of the result come in the custom order. *)
Theorem C25_custom_order_labels :
  forall n order g children,
  List.map (fun r => firstn 1 (skipn n (fst r))) (group n g (cumulative_distribution n (ByOrder order) children)) =
  flat_map (fun o => List.map (fun _ => [o])
     (filter (fun r => negb (is_nan (snd r)) && key_eqb (firstn 1 (skipn n (fst r))) [o]) (group n g (distribution n children)))) order.
Proof. exact cumdist_ordered_labels. Qed.
(** A custom order that misses a label silently drops its share: the last value is not 1. *)
Theorem C25_incomplete_order_refuted :
  exists order children, NoDup order /\ nonneg_slice 0 [] children /\
  cumulative_distribution 0 (ByOrder order) children = [(["a"], Fin (1 / 4))].
Proof.
  exists ["a"], [(["a"], Fin 1); (["b"], Fin 3)]. split; [repeat constructor; simpl; tauto|]. split.
  - unfold nonneg_slice, finite_slice, total, nums, vals. simpl. repeat split; repeat constructor; try discriminate; lra.
  - unfold cumulative_distribution, distribution, groupby_level, level_keys, reindex_order, sort_by_level, group_cumsum, xsum. simpl.
    destruct (Req_EM_T (1 + (3 + 0)) 0); [lra|]. simpl. do 3 f_equal. lra.
Qed.

(** ** C26 PercentChange and AbsoluteChange.  Index keys are split_by ++ condition ++ rest. *)
Section C26.
  Variables (n nc : nat) (base : list string) (include_base : bool) (children res : list (list string * num)).
  Hypothesis base_length : List.length base = nc.
  Hypothesis unique_index : NoDup (List.map fst children).
  Hypothesis index_levels : forall k v, In (k, v) children -> (n + nc <= List.length k)%nat.
  Variables s c r : list string.
  Hypothesis s_length : List.length s = n.
  Hypothesis c_length : List.length c = nc.

  Theorem C26_percent_change :
    percent_change n nc base include_base children = Some res ->
    forall v b, In (s ++ c ++ r, Fin v) children -> In (s ++ base ++ r, Fin b) children -> b <> 0 ->
    include_base = true \/ c <> base -> In (s ++ c ++ r, Fin ((v / b - 1) * 100)) res.
  Proof.
    intros H v b Hv Hb Hz Hk. rewrite <- percent_value by assumption.
    exact (compare_row _ n nc base include_base children res base_length (conj unique_index index_levels) H s c r _ _ s_length c_length Hv Hb Hk).
  Qed.
  Theorem C26_absolute_change :
    absolute_change n nc base include_base children = Some res ->
    forall v b, In (s ++ c ++ r, Fin v) children -> In (s ++ base ++ r, Fin b) children ->
    include_base = true \/ c <> base -> In (s ++ c ++ r, Fin (v - b)) res.
  Proof.
    intros H v b Hv Hb Hk.
    exact (compare_row _ n nc base include_base children res base_length (conj unique_index index_levels) H s c r _ _ s_length c_length Hv Hb Hk).
  Qed.
  (** Slices that lack the baseline get a missing value. *)
  Theorem C26_no_baseline_in_slice :
    forall v, In (s ++ c ++ r, v) children -> (forall w, ~ In (s ++ base ++ r, w) children) ->
    (percent_change n nc base include_base children = Some res -> In (s ++ c ++ r, NaN) res) /\
    (absolute_change n nc base include_base children = Some res -> In (s ++ c ++ r, NaN) res).
  Proof.
    intros v Hv Hn. split; intros H.
    - assert (forall x, xmul (xsub (xdiv x NaN) (Fin 1)) (Fin 100) = NaN) as E by (intros []; reflexivity).
      rewrite <- (E v).
      exact (compare_no_base _ n nc base include_base children res base_length (conj unique_index index_levels) H s c r _ s_length c_length Hv Hn).
    - assert (xsub v NaN = NaN) as E by (destruct v; reflexivity). rewrite <- E.
      exact (compare_no_base _ n nc base include_base children res base_length (conj unique_index index_levels) H s c r _ s_length c_length Hv Hn).
  Qed.
  (** The baseline row itself is 0 when included. *)
  Theorem C26_baseline_row_is_zero :
    forall b, include_base = true -> In (s ++ base ++ r, Fin b) children ->
    (b <> 0 -> percent_change n nc base include_base children = Some res -> In (s ++ base ++ r, Fin 0) res) /\
    (absolute_change n nc base include_base children = Some res -> In (s ++ base ++ r, Fin 0) res).
  Proof.
    intros b Hi Hb. split.
    - intros Hz H. replace 0 with ((b / b - 1) * 100) by (field; assumption). rewrite <- percent_value by assumption.
      exact (compare_row _ n nc base include_base children res base_length (conj unique_index index_levels) H s base r _ _ s_length base_length Hb Hb (or_introl Hi)).
    - intros H. replace (Fin 0) with (xsub (Fin b) (Fin b)) by (simpl; f_equal; lra).
      exact (compare_row _ n nc base include_base children res base_length (conj unique_index index_levels) H s base r _ _ s_length base_length Hb Hb (or_introl Hi)).
  Qed.
End C26.
Print Assumptions C26_percent_change.
(** The rows of the result are the child's rows without the baseline's (or with, if include_base). *)
Theorem C26_index :
  forall n nc base include_base children res,
  percent_change n nc base include_base children = Some res \/ absolute_change n nc base include_base children = Some res ->
  List.map fst res = filter (fun k => include_base || negb (key_eqb (cond_of n nc k) base)) (List.map fst children).
Proof. intros n nc base incl children res [H|H]; exact (compare_index _ n nc base incl children res H). Qed.
(** KeyError exactly when no row at all has the baseline key. *)
Theorem C26_raises_iff :
  forall n nc base include_base children,
  (percent_change n nc base include_base children = None <-> forall k v, In (k, v) children -> cond_of n nc k <> base) /\
  (absolute_change n nc base include_base children = None <-> forall k v, In (k, v) children -> cond_of n nc k <> base).
Proof. intros. split; apply compare_raises. Qed.
Definition ex_change : list (list string * num) :=
  [(["us"; "ctl"], Fin 4); (["us"; "exp"], Fin 5); (["uk"; "exp"], Fin 7)].
Example C26_example : exists res, percent_change 1 1 ["ctl"] false ex_change = Some res /\
  In (["us"; "exp"], Fin ((5 / 4 - 1) * 100)) res /\ In (["uk"; "exp"], NaN) res /\ List.length res = 2%nat.
Proof.
  eexists. split; [reflexivity|].
  assert (percent_change 1 1 ["ctl"] false ex_change = Some [(["us"; "exp"], xmul (xsub (xdiv (Fin 5) (Fin 4)) (Fin 1)) (Fin 100)); (["uk"; "exp"], NaN)]) as E by reflexivity.
  assert (NoDup (List.map fst ex_change)) as Hd by (repeat constructor; simpl; intuition discriminate).
  assert (forall k v, In (k, v) ex_change -> (2 <= List.length k)%nat) as Hl.
  { intros k v H. simpl in H. destruct H as [H|[H|[H|[]]]]; injection H as <- _; simpl; auto. }
  split; [|split]; [|right; left; reflexivity|reflexivity].
  apply (C26_percent_change 1 1 ["ctl"] false ex_change _ eq_refl Hd Hl ["us"] ["exp"] [] eq_refl eq_refl eq_refl 5 4);
    [right; left; reflexivity|left; reflexivity|lra|right; discriminate].
Qed.

(** ** C27 MH.  Index keys are split_by ++ condition ++ stratum ++ rest; values (numerator, denominator). *)
(** For a slice s (and rest r), an arm c and the strata [hs] that both the arm and the baseline
    have in that slice, the value is the textbook Mantel-Haenszel estimate. *)
Theorem C27_mantel_haenszel :
  forall n nc ns base include_base (df : list (list string * (num * num))) res (s c r : list string)
         (hs : list (list string)) (ka na kb nb : list string -> R),
  mh n nc ns base include_base df = Some res ->
  List.length base = nc -> List.length s = n -> List.length c = nc ->
  NoDup (List.map fst df) -> (forall k q, In (k, q) df -> (n + nc + ns <= List.length k)%nat) ->
  include_base = true \/ c <> base ->
  hs <> [] -> NoDup hs -> Forall (fun h => List.length h = ns) hs ->
  (forall h, List.length h = ns ->
     (In h hs <-> (exists q, In (s ++ c ++ h ++ r, q) df) /\ (exists q, In (s ++ base ++ h ++ r, q) df))) ->
  (forall h, In h hs -> In (s ++ c ++ h ++ r, (Fin (ka h), Fin (na h))) df /\
                        In (s ++ base ++ h ++ r, (Fin (kb h), Fin (nb h))) df /\ na h + nb h <> 0) ->
  Rsum (List.map (fun h => kb h * na h / (na h + nb h)) hs) <> 0 ->
  In (s ++ c ++ r, Fin (mh_textbook (List.map (fun h => (ka h, na h, kb h, nb h)) hs))) res.
Proof. exact mh_correct. Qed.
Print Assumptions C27_mantel_haenszel.
Theorem C27_one_stratum :
  forall ka na kb nb, na <> 0 -> nb <> 0 -> kb <> 0 -> na + nb <> 0 ->
  mh_textbook [(ka, na, kb, nb)] = (ka / na / (kb / nb) - 1) * 100.
Proof. exact mh_one_stratum. Qed.
Theorem C27_common_factor :
  forall f l, (forall ka na kb nb, In (ka, na, kb, nb) l -> nb <> 0 /\ na <> 0 /\ ka / na = f * (kb / nb)) ->
  Rsum (List.map (fun q => let '(ka, na, kb, nb) := q in kb * na / (na + nb)) l) <> 0 ->
  mh_textbook l = (f - 1) * 100.
Proof. exact mh_common_factor. Qed.
Theorem C27_raises_iff :
  forall n nc ns base include_base (df : list (list string * (num * num))),
  mh n nc ns base include_base df = None <-> (forall k q, In (k, q) df -> cond_of n nc k <> base).
Proof. exact mh_raises. Qed.
Definition ex_mh : list (list string * (num * num)) :=
  [(["ctl"; "h1"], (Fin 2, Fin 4)); (["ctl"; "h2"], (Fin 1, Fin 5));
   (["exp"; "h1"], (Fin 3, Fin 4)); (["exp"; "h2"], (Fin 2, Fin 5)); (["exp"; "h3"], (Fin 9, Fin 9))].
Example C27_example : exists res, mh 0 1 1 ["ctl"] false ex_mh = Some res /\
  In (["exp"], Fin (mh_textbook [(3, 4, 2, 4); (2, 5, 1, 5)])) res.
Proof.
  eexists. split; [reflexivity|].
  set (ka := fun h => if list_eq_dec string_dec h ["h1"] then 3 else 2).
  set (na := fun h => if list_eq_dec string_dec h ["h1"] then 4 else 5).
  set (kb := fun h => if list_eq_dec string_dec h ["h1"] then 2 else 1).
  apply (C27_mantel_haenszel 0 1 1 ["ctl"] false ex_mh _ [] ["exp"] [] [["h1"]; ["h2"]] ka na kb na eq_refl); auto.
  - repeat constructor; simpl; intuition discriminate.
  - intros k q H. simpl in H. repeat (destruct H as [H|H]; [injection H as <- _; simpl; auto|]); destruct H.
  - right. discriminate.
  - discriminate.
  - repeat constructor; simpl; intuition discriminate.
  - intros h Hh. simpl. split.
    + intros [<-|[<-|[]]]; split; eexists; simpl; tauto.
    + intros [_ [q Hq]]. repeat (destruct Hq as [Hq|Hq]; [injection Hq; intros; subst; try discriminate; destruct h; try discriminate|]); try (destruct h; try discriminate); auto.
      all: try (simpl in *; injection H0; intros; subst; rewrite app_nil_r; tauto).
  - intros h [<-|[<-|[]]]; unfold ka, na, kb; simpl; repeat split; try tauto; lra.
  - unfold ka, na, kb. simpl. lra.
Qed.

(** A stratum whose numerator is missing in the arm (but whose denominator is not) is skipped in one
    of the two sums only: the estimate is neither that of the complete strata nor anything textbook. *)
Theorem C27_missing_numerator_refuted :
  exists df, mh 0 1 1 ["ctl"] false df = Some [(["exp"], Fin 0)] /\
  df = [(["ctl"; "h1"], (Fin 2, Fin 4)); (["ctl"; "h2"], (Fin 1, Fin 5)); (["exp"; "h1"], (Fin 3, Fin 4)); (["exp"; "h2"], (NaN, Fin 5))] /\
  mh_textbook [(3, 4, 2, 4)] = 50.
Proof.
  eexists. split; [|split; [reflexivity|]].
  - unfold mh, xs. simpl. unfold xsum, xdiv. simpl.
    destruct (Req_EM_T (4 + 4) 0); [lra|]. destruct (Req_EM_T (5 + 5) 0); [lra|]. simpl.
    match goal with |- context [Req_EM_T ?x 0] => destruct (Req_EM_T x 0) as [E|E]; [lra|] end. simpl.
    do 4 f_equal. lra.
  - unfold mh_textbook. simpl. lra.
Qed.

(** ** C29 HHI *)
Theorem C29_bounds :
  forall n g child, nonneg_slice n g child ->
  exists h, value_at g (hhi n child) (Fin h) /\ / INR (List.length (nums n g child)) <= h <= 1.
Proof. exact hhi_bounds. Qed.
Print Assumptions C29_bounds.
Theorem C29_definition :
  forall n g child, nonneg_slice n g child ->
  value_at g (hhi n child) (Fin (Rsum (List.map (fun p => p * p) (shares n g child)))).
Proof. exact hhi_value. Qed.
Theorem C29_scale_invariant :
  forall n g child c x, 0 < c -> nonneg_slice n g child ->
  value_at g (hhi n child) x -> value_at g (hhi n (scaled c child)) x.
Proof. exact hhi_scale. Qed.

(** ** C30 Entropy; contributors with value 0 are allowed *)
Theorem C30_bounds :
  forall n g child, nonneg_slice n g child ->
  exists h, value_at g (entropy n child) (Fin h) /\ 0 <= h <= ln (INR (List.length (nums n g child))).
Proof. exact entropy_bounds. Qed.
Print Assumptions C30_bounds.
Theorem C30_definition :
  forall n g child, nonneg_slice n g child ->
  value_at g (entropy n child)
    (Fin (Rsum (List.map (fun p => - p * ln p) (filter (fun p => if Rlt_dec 0 p then true else false) (shares n g child))))).
Proof. exact entropy_value. Qed.
Theorem C30_scale_invariant :
  forall n g child c x, 0 < c -> nonneg_slice n g child ->
  value_at g (entropy n child) x -> value_at g (entropy n (scaled c child)) x.
Proof. exact entropy_scale. Qed.

(** ** C31 TopK (k = 0 with split_by gives an empty result) *)
Theorem C31_k_largest :
  forall k n g child, nonneg_slice n g child -> n = O \/ k <> O ->
  exists top rest, Permutation (shares n g child) (top ++ rest) /\
    List.length top = Nat.min k (List.length (shares n g child)) /\
    (forall a b, In a top -> In b rest -> b <= a) /\
    value_at g (top_k k n child) (Fin (Rsum top)).
Proof. exact top_k_spec. Qed.
Print Assumptions C31_k_largest.
Theorem C31_no_better_choice :
  forall k n g child x, nonneg_slice n g child -> value_at g (top_k k n child) (Fin x) -> n = O \/ k <> O ->
  forall a b, Permutation (shares n g child) (a ++ b) -> (List.length a <= k)%nat -> Rsum a <= x.
Proof. exact top_k_best. Qed.
Theorem C31_monotone :
  forall k k' n g child x y, nonneg_slice n g child -> n = O \/ k <> O -> (k <= k')%nat ->
  value_at g (top_k k n child) (Fin x) -> value_at g (top_k k' n child) (Fin y) -> x <= y.
Proof. exact top_k_monotone. Qed.
Theorem C31_all_contributors :
  forall k n g child, nonneg_slice n g child -> (List.length (nums n g child) <= k)%nat -> n = O \/ k <> O ->
  value_at g (top_k k n child) (Fin 1).
Proof. exact top_k_all. Qed.

(** ** C32 Nxx *)
(** In exact arithmetic: some choice of N contributors reaches the share, no smaller choice does. *)
Theorem C32_least_number :
  forall share n g child, nonneg_slice n g child -> 0 < share <= 1 ->
  exists N, value_at g (nxx share n child) (Fin (INR N)) /\
    (exists top rest, Permutation (shares n g child) (top ++ rest) /\ List.length top = N /\ share <= Rsum top) /\
    (forall a b, Permutation (shares n g child) (a ++ b) -> share <= Rsum a -> (N <= List.length a)%nat).
Proof. exact nxx_spec. Qed.
Print Assumptions C32_least_number.
(** In binary64: ten contributors of 1 each; the answer for the share 1 is eleven. *)
Theorem C32_binary64_refuted :
  exists values, List.length values = 10%nat /\ nxx_binary64 (b64_of_Z 1) values = 11%nat.
Proof. exists (List.repeat (b64_of_Z 1) 10). split; [reflexivity|]. vm_compute. reflexivity. Qed.
Print Assumptions C32_binary64_refuted.
Example C29_32_example : nonneg_slice 1 ["us"] ex_child /\ nums 1 ["us"] ex_child = [3; 1].
Proof. split; [apply C24_example|reflexivity]. Qed.

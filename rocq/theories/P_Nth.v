(** C47: Nth. *)
From Coq Require Import List Bool ZArith Permutation Sorted Lia.
From Verif Require Import M_Nth L_Nth.
Import ListNotations.
Open Scope list_scope.
Open Scope nat_scope.

Definition order {K} (leb : K -> K -> bool) : Prop :=
  (forall a b, leb a b = true \/ leb b a = true) /\ (forall a b c, leb a b = true -> leb b c = true -> leb a c = true).
Definition keys_present {K V G} (df : list (row K V G)) : Prop := forall r, In r df -> row_key r <> None.
(** Does a row with key x go strictly before a row with key y?  Missing keys go last in both directions. *)
Definition goes_before {K} (leb : K -> K -> bool) (asc : bool) (x y : option K) : bool :=
  match x, y with
  | Some a, Some b => negb (if asc then leb b a else leb a b)
  | Some _, None => true
  | None, _ => false
  end.
Definition count {K V G} (p : row K V G -> bool) (df : list (row K V G)) : nat := List.length (filter p df).
Definition present {V} (v : option V) : bool := match v with Some _ => true | None => false end.
(** The rows Nth ranks. *)
Definition ranked {K V G} (dropna : bool) (df : list (row K V G)) : list (row K V G) := filter (fun r => negb dropna || present (row_val r)) df.
Lemma ranked_is {K V G} dropna (df : list (row K V G)) : drop_missing dropna df = ranked dropna df.
Proof. destruct dropna; unfold drop_missing, ranked; cbn; [reflexivity|]. symmetry. now apply filter_true. Qed.
Lemma before_is {K V G} leb asc (r x : row K V G) : before leb Pandas asc r x = goes_before leb asc (row_key x) (row_key r).
Proof. unfold before, precb, goes_before. destruct (row_key r), (row_key x), asc; reflexivity. Qed.
Lemma not_after_is {K V G} leb asc (r x : row K V G) : not_after leb Pandas asc r x = negb (goes_before leb asc (row_key r) (row_key x)).
Proof. unfold not_after, precb, goes_before. destruct (row_key r), (row_key x), asc; cbn; rewrite ?negb_involutive; reflexivity. Qed.
Lemma init_nonneg n asc : (0 <= n)%Z -> nth_init n asc = (Z.to_nat n, asc).
Proof. intros H. unfold nth_init. destruct (Z.ltb_spec n 0); [lia|reflexivity]. Qed.
Lemma init_neg k asc : nth_init (- Z.of_nat k - 1) asc = (k, negb asc).
Proof. unfold nth_init. destruct (Z.ltb_spec (- Z.of_nat k - 1) 0); [|lia]. f_equal. lia. Qed.

(** Nth(k, ascending) is the value of a row with at most k rows strictly before it and more than k not after it
    (any such row), missing if there are no k+1 rows. *)
Lemma computes_iff {K V G} (leb : K -> K -> bool) : order leb -> forall k asc (rows : list (row K V G)) v,
  (exists df', sorts_to leb Pandas asc rows df' /\ v = nth_of k df') <->
  (List.length rows <= k /\ v = None) \/
  (exists r, In r rows /\ row_val r = v /\ count (fun x => goes_before leb asc (row_key x) (row_key r)) rows <= k
                                        /\ k < count (fun x => negb (goes_before leb asc (row_key r) (row_key x))) rows).
Proof.
  intros [HT HR] k asc rows v. split.
  - intros (df' & HS & ->). unfold nth_of. destruct (nth_error df' k) as [r|] eqn:E.
    + right. exists r. destruct (proj1 (position_iff leb HT HR Pandas asc rows k r)) as [HI [H1 H2]]; [eauto|].
      split; [exact HI|]. split; [reflexivity|]. unfold count. erewrite (filter_ext _ (before leb Pandas asc r)) by (intros; symmetry; apply before_is).
      erewrite (filter_ext (fun x => negb _) (not_after leb Pandas asc r)) by (intros; symmetry; apply not_after_is). auto.
    + left. apply nth_error_None in E. destruct HS as [P _]. rewrite (Permutation_length P). auto.
  - intros [[H ->]|(r & HI & <- & H1 & H2)].
    + destruct (sort_exists leb HT HR Pandas asc rows) as (df' & HS). exists df'. split; [exact HS|]. unfold nth_of.
      destruct (nth_error df' k) eqn:E; [|reflexivity]. assert (nth_error df' k <> None) by congruence. apply nth_error_Some in H0. destruct HS as [P _]. rewrite (Permutation_length P) in H. lia.
    + destruct (proj2 (position_iff leb HT HR Pandas asc rows k r)) as (df' & HS & HN).
      * split; [exact HI|]. unfold count in *. erewrite (filter_ext (before leb Pandas asc r)) by (intros; apply before_is).
        erewrite (filter_ext (not_after leb Pandas asc r)) by (intros; apply not_after_is). auto.
      * exists df'. split; [exact HS|]. unfold nth_of. now rewrite HN.
Qed.
Theorem C47_order_statistic : forall K V G (leb : K -> K -> bool), order leb -> forall k asc dropna (df : list (row K V G)) v,
  computes leb (Z.of_nat k) asc dropna df v <->
  (List.length (ranked dropna df) <= k /\ v = None) \/
  (exists r, In r (ranked dropna df) /\ row_val r = v /\
     count (fun x => goes_before leb asc (row_key x) (row_key r)) (ranked dropna df) <= k /\
     k < count (fun x => negb (goes_before leb asc (row_key r) (row_key x))) (ranked dropna df)).
Proof.
  intros K V G leb HO k asc dropna df v. unfold computes. rewrite init_nonneg by lia. rewrite Nat2Z.id, ranked_is. now apply computes_iff.
Qed.
Print Assumptions C47_order_statistic.

(** C47 as stated: -k-1 is k in the other direction ... *)
Theorem C47_other_direction : forall K V G (leb : K -> K -> bool) k asc dropna (df : list (row K V G)) v,
  computes leb (- Z.of_nat k - 1) asc dropna df v <-> computes leb (Z.of_nat k) (negb asc) dropna df v.
Proof. intros. unfold computes. rewrite init_neg, init_nonneg, Nat2Z.id by lia. reflexivity. Qed.
(** ... out of range is missing ... *)
Theorem C47_out_of_range : forall K V G (leb : K -> K -> bool), order leb -> forall n asc dropna (df : list (row K V G)) v,
  (Z.of_nat (List.length (ranked dropna df)) <= n \/ n < - Z.of_nat (List.length (ranked dropna df)))%Z ->
  (computes leb n asc dropna df v <-> v = None).
Proof.
  intros K V G leb HO n asc dropna df v H. unfold computes. destruct (nth_init n asc) as [k asc'] eqn:E. rewrite ranked_is, computes_iff by exact HO.
  assert (HK : List.length (ranked dropna df) <= k) by (unfold nth_init in E; destruct (Z.ltb_spec n 0); injection E as <- <-; lia).
  split; [|now left]. intros [[_ ?]|(r & _ & _ & _ & H2)]; [assumption|]. unfold count in H2.
  assert (forall (p : row K V G -> bool) l, List.length (filter p l) <= List.length l) by (clear; intros p l; induction l as [|x l]; cbn; [lia|destruct (p x); cbn; lia]).
  specialize (H0 (fun x => negb (goes_before leb asc' (row_key r) (row_key x))) (ranked dropna df)). lia.
Qed.
Print Assumptions C47_out_of_range.
(** ... and, with no missing keys, -k-1 counts from the end of the ascending (descending) order. *)
Lemma nth_rev {A} (l : list A) i : i < List.length l -> nth_error (rev l) i = nth_error l (List.length l - 1 - i).
Proof.
  intros Hi. destruct (nth_error l (List.length l - 1 - i)) as [r|] eqn:E.
  - apply nth_error_split in E. destruct E as (a & b & -> & HL). rewrite rev_app_distr. cbn [rev]. rewrite !app_length in *. cbn [List.length] in *.
    rewrite <- app_assoc. cbn [app]. rewrite nth_error_app2 by (rewrite rev_length; lia). rewrite rev_length. replace (i - List.length b) with 0 by lia. reflexivity.
  - apply nth_error_None in E. lia.
Qed.
(** each row's key is at most (at least) the key of each later row *)
Definition in_order {K V G} (leb : K -> K -> bool) (asc : bool) (l : list (row K V G)) : Prop :=
  forall a x b y c, l = a ++ x :: b ++ y :: c ->
    exists kx ky, row_key x = Some kx /\ row_key y = Some ky /\ (if asc then leb kx ky else leb ky kx) = true.
Lemma in_order_iff {K V G} (leb : K -> K -> bool) e asc (l : list (row K V G)) : keys_present l ->
  (StronglySorted (may_precede leb e asc) l <-> in_order leb asc l).
Proof.
  intros HP. split.
  - intros HS a x b y c ->. apply ssorted_app in HS. destruct HS as (_ & HS & _). inversion HS as [|? ? _ HF]; subst. rewrite Forall_forall in HF.
    specialize (HF y ltac:(apply in_app_iff; right; now left)). unfold may_precede in HF.
    destruct (row_key x) as [kx|] eqn:E; [|exfalso; apply (HP x); [apply in_app_iff; right; now left|exact E]].
    destruct (row_key y) as [ky|] eqn:E2; [|exfalso; apply (HP y); [apply in_app_iff; right; right; apply in_app_iff; right; now left|exact E2]].
    exists kx, ky. destruct asc; auto.
  - induction l as [|x l IH]; intros H; [constructor|]. constructor.
    + apply IH; [intros r Hr; apply HP; now right|]. intros a x' b y c ->. apply (H (x :: a) x' b y c). reflexivity.
    + apply Forall_forall. intros y Hy. apply in_split in Hy. destruct Hy as (b & c & ->). destruct (H [] x b y c eq_refl) as (kx & ky & E1 & E2 & L).
      unfold may_precede. rewrite E1, E2. destruct asc; exact L.
Qed.
Lemma keys_perm {K V G} (l l' : list (row K V G)) : Permutation l l' -> keys_present l -> keys_present l'.
Proof. intros P H r Hr. apply H. eapply Permutation_in; [symmetry; exact P|exact Hr]. Qed.
Lemma sorted_flip {K V G} (leb : K -> K -> bool) e asc (l : list (row K V G)) : keys_present l ->
  StronglySorted (may_precede leb e asc) l -> StronglySorted (may_precede leb e (negb asc)) (rev l).
Proof.
  intros HP S. apply ssorted_rev in S. eapply ssorted_impl; [|exact S]. intros x y Hx Hy. apply in_rev in Hx, Hy.
  specialize (HP x Hx) as H1. specialize (HP y Hy) as H2. unfold may_precede. destruct (row_key x), (row_key y), asc; try congruence; auto.
Qed.
Theorem C47_from_the_end_partial : forall K V G (leb : K -> K -> bool) k asc dropna (df : list (row K V G)) v,
  keys_present (ranked dropna df) -> k < List.length (ranked dropna df) ->
  (computes leb (- Z.of_nat k - 1) asc dropna df v <->
   exists df' r, Permutation (ranked dropna df) df' /\ in_order leb asc df' /\
     nth_error df' (List.length df' - 1 - k) = Some r /\ v = row_val r).
Proof.
  intros K V G leb k asc dropna df v HP HK. unfold computes. rewrite init_neg, ranked_is. set (rows := ranked dropna df) in *. split.
  - intros (df' & [P S] & ->). assert (L := Permutation_length P). unfold nth_of. destruct (nth_error df' k) as [r|] eqn:E; [|apply nth_error_None in E; lia].
    assert (KP := keys_perm _ _ P HP). exists (rev df'), r. split; [rewrite P; apply Permutation_rev|]. split; [|split; [|reflexivity]].
    + apply (in_order_iff leb Pandas); [eapply keys_perm; [apply Permutation_rev|exact KP]|]. apply sorted_flip in S; [|exact KP]. rewrite negb_involutive in S. exact S.
    + rewrite rev_length, nth_rev by lia. rewrite <- E. f_equal. lia.
  - intros (df' & r & P & S & E & ->). assert (L := Permutation_length P). assert (KP := keys_perm _ _ P HP). exists (rev df'). split; [split|].
    + rewrite P. apply Permutation_rev.
    + apply sorted_flip; [exact KP|]. now apply in_order_iff.
    + unfold nth_of. rewrite nth_rev by lia. now rewrite E.
Qed.
Print Assumptions C47_from_the_end_partial.
(** With a missing key the last row of the ascending order is not what Nth(-1) returns. *)
Definition ex_row (k v : option nat) : row nat nat nat := {| row_slice := None; row_key := k; row_val := v |}.
Theorem C47_missing_key_refuted : exists df : list (row nat nat nat),
  (forall v, computes Nat.leb (-1) true false df v <-> v = Some 10) /\
  (forall df', sorts_to Nat.leb Pandas true df df' -> nth_of (List.length df' - 1) df' = Some 20).
Proof.
  assert (OL : order Nat.leb) by (split; intros; rewrite ?Nat.leb_le in *; lia).
  exists [ex_row None (Some 20); ex_row (Some 1) (Some 10)]. split.
  - intros v. unfold computes. rewrite (init_neg 0). rewrite ranked_is, computes_iff by exact OL. cbn. split.
    + intros [[H _]|(r & [<-|[<-|[]]] & <- & H1 & H2)]; [lia| |reflexivity]. cbn in H1. lia.
    + intros ->. right. exists (ex_row (Some 1) (Some 10)). cbn. repeat split; auto; lia.
  - intros df' [P S]. apply Permutation_length_2_inv in P. destruct P as [->| ->]; [|reflexivity].
    inversion S as [|? ? _ F]; subst. inversion F as [|? ? H _]; subst. destruct H.
Qed.

(** The value does not depend on the order of ties if rows with equal keys have equal values. *)
Theorem C47_unique : forall K V G (leb : K -> K -> bool), order leb -> forall n asc dropna (df : list (row K V G)) v v',
  (forall x y, In x (ranked dropna df) -> In y (ranked dropna df) ->
     goes_before leb true (row_key x) (row_key y) = false -> goes_before leb true (row_key y) (row_key x) = false -> row_val x = row_val y) ->
  computes leb n asc dropna df v -> computes leb n asc dropna df v' -> v = v'.
Proof.
  intros K V G leb HO n asc dropna df v v' HT. unfold computes. destruct (nth_init n asc) as [k asc']. rewrite ranked_is, !computes_iff by exact HO.
  set (rows := ranked dropna df) in *.
  assert (LE : forall (p : row K V G -> bool), count p rows <= List.length rows) by (clear; unfold count; intros p; induction rows as [|x l]; cbn; [lia|destruct (p x); cbn; lia]).
  assert (LQ : forall (p q : row K V G -> bool), (forall x, p x = true -> q x = true) -> count p rows <= count q rows).
  { clear. intros p q H. unfold count. induction rows as [|x l]; cbn; [lia|]. specialize (H x). destruct (p x), (q x); cbn; try lia; discriminate H; reflexivity. }
  assert (GB : forall r s, In r rows -> In s rows -> count (fun x => goes_before leb asc' (row_key x) (row_key r)) rows <= k -> k < count (fun x => negb (goes_before leb asc' (row_key s) (row_key x))) rows ->
     goes_before leb asc' (row_key s) (row_key r) = false).
  { intros r s _ _ H1 H2. destruct (goes_before leb asc' (row_key s) (row_key r)) eqn:E; [|reflexivity]. exfalso.
    assert (Q : count (fun x => negb (goes_before leb asc' (row_key s) (row_key x))) rows <= count (fun x => goes_before leb asc' (row_key x) (row_key r)) rows); [|lia].
    apply LQ. intros x. destruct HO as [HTot HTr]. unfold goes_before in *. destruct (row_key x) as [a|], (row_key s) as [b|], (row_key r) as [c|], asc'; cbn in *; try discriminate; auto; rewrite ?negb_involutive, ?negb_true_iff in *.
    all: intros HL; match goal with |- ?t = false => destruct t eqn:Q; [exfalso|reflexivity] end; rewrite (HTr _ _ _ Q HL) in E || rewrite (HTr _ _ _ HL Q) in E; discriminate. }
  assert (GT : forall x y : option K, goes_before leb asc' x y = false -> goes_before leb asc' y x = false -> goes_before leb true x y = false /\ goes_before leb true y x = false).
  { intros [x|] [y|]; destruct asc'; cbn; auto. }
  intros [[H ->]|(r & Hr & <- & H1 & H2)] [[H' ->]|(r' & Hr' & <- & H1' & H2')]; [reflexivity| | |].
  - pose proof (LE (fun x => negb (goes_before leb asc' (row_key r') (row_key x)))). lia.
  - pose proof (LE (fun x => negb (goes_before leb asc' (row_key r) (row_key x)))). lia.
  - destruct (GT (row_key r) (row_key r')) as [G1 G2]; [now apply GB|now apply GB|]. now apply HT.
Qed.
Print Assumptions C47_unique.

(** Slices: compute_on with split_by gives for each slice a value Nth gives on the slice alone - any such value -
    and no row where the slice alone has too few rows. *)
Theorem C47_slices : forall K V G (leb : K -> K -> bool) geqb, order leb -> forall n asc dropna (df : list (row K V G)) g,
  (forall res, computes_slices leb geqb n asc dropna df res -> forall v, res g = Some v -> computes leb n asc dropna (filter (in_slice geqb g) df) v) /\
  (forall v, computes leb n asc dropna (filter (in_slice geqb g) df) v ->
     (- Z.of_nat (List.length (ranked dropna (filter (in_slice geqb g) df))) <= n < Z.of_nat (List.length (ranked dropna (filter (in_slice geqb g) df))))%Z ->
     exists res, computes_slices leb geqb n asc dropna df res /\ res g = Some v) /\
  (forall res, computes_slices leb geqb n asc dropna df res ->
     (res g = None <-> (Z.of_nat (List.length (ranked dropna (filter (in_slice geqb g) df))) <= n \/
                        n < - Z.of_nat (List.length (ranked dropna (filter (in_slice geqb g) df))))%Z)).
Proof.
  intros K V G leb geqb HO n asc dropna df g. unfold computes_slices, computes. destruct (nth_init n asc) as [k asc'] eqn:E.
  rewrite <- !ranked_is. set (m := List.length (drop_missing dropna (filter (in_slice geqb g) df))).
  assert (HK : forall j, j <= k <-> (Z.of_nat j <= n \/ n < - Z.of_nat j)%Z) by (intros j; unfold nth_init in E; destruct (Z.ltb_spec n 0); injection E as <- <-; lia).
  assert (FS : forall df', sorts_to leb Pandas asc' (drop_missing dropna df) df' -> sorts_to leb Pandas asc' (drop_missing dropna (filter (in_slice geqb g) df)) (filter (in_slice geqb g) df')).
  { intros df' [P S]. rewrite drop_filter. split; [now apply permutation_filter|now apply ssorted_filter]. }
  split; [|split].
  - intros res (df' & HS & HR) v HV. rewrite HR in HV. unfold nth_rows in HV. destruct (nth_error (filter (in_slice geqb g) df') k) eqn:EN; [|discriminate]. cbn in HV. injection HV as HV.
    exists (filter (in_slice geqb g) df'). split; [now apply FS|]. unfold nth_of. now rewrite EN.
  - intros v (s & HS & HV) HN. assert (HM : ~ m <= k) by (rewrite HK; unfold m; lia). assert (HS' := HS). rewrite drop_filter in HS'. destruct HO as [H1 H2].
    destruct (extend_sorted leb H1 H2 (in_slice geqb g) Pandas asc' _ _ HS') as (df' & HD & EF). exists (nth_rows geqb k df'). split; [exists df'; auto|].
    unfold nth_rows. rewrite EF. destruct HS as [P _]. assert (L := Permutation_length P). fold m in L.
    rewrite filter_true. 2:{ intros x Hx. eapply Permutation_in in Hx; [|symmetry; exact P]. rewrite drop_filter in Hx. now apply filter_In in Hx. }
    unfold nth_of in HV. destruct (nth_error s k) eqn:EN; [now subst|]. apply nth_error_None in EN. lia.
  - intros res (df' & HS & HR). rewrite <- HK, HR. unfold nth_rows. destruct (FS _ HS) as [P _]. apply Permutation_length in P. fold m in P. rewrite P, <- nth_error_None.
    destruct (nth_error _ _); cbn; split; congruence.
Qed.
Print Assumptions C47_slices.

(** The query agrees if no key is missing or the order is descending ... *)
Theorem C47_query_partial : forall K V G (leb : K -> K -> bool) n asc dropna (df : list (row K V G)) v,
  keys_present (ranked dropna df) \/ (if (n <? 0)%Z then asc = true else asc = false) ->
  (query_computes leb n asc dropna df v <-> computes leb n asc dropna df v).
Proof.
  intros K V G leb n asc dropna df v H. unfold query_computes, computes. destruct (nth_init n asc) as [k asc'] eqn:E. rewrite ranked_is.
  assert (HS : forall df', sorts_to leb BigQuery asc' (ranked dropna df) df' <-> sorts_to leb Pandas asc' (ranked dropna df) df').
  { intros df'. unfold sorts_to. destruct H as [H|H].
    - split; intros [P S]; split; auto; assert (KP := keys_perm _ _ P H); apply in_order_iff; auto; (apply in_order_iff in S; auto).
    - assert (asc' = false) by (unfold nth_init in E; destruct (n <? 0)%Z; injection E as <- <-; subst; reflexivity). subst asc'.
      split; intros [P S]; split; auto; (eapply ssorted_impl; [|exact S]); intros x y _ _; unfold may_precede; destruct (row_key x), (row_key y); auto; discriminate. }
  split; intros (df' & S & ->); exists df'; (split; [now apply HS|]); [|symmetry]; apply limit_offset_is.
Qed.
Print Assumptions C47_query_partial.
(** ... and returns the row with the NULL key first otherwise. *)
Theorem C47_query_refuted : exists df : list (row nat nat nat),
  (forall v, computes Nat.leb 0 true false df v <-> v = Some 10) /\ (forall v, query_computes Nat.leb 0 true false df v <-> v = Some 20).
Proof.
  assert (OL : order Nat.leb) by (split; intros; rewrite ?Nat.leb_le in *; lia).
  exists [ex_row None (Some 20); ex_row (Some 1) (Some 10)]. split; intros v.
  - rewrite (C47_order_statistic _ _ _ _ OL 0). cbn. split.
    + intros [[H _]|(r & [<-|[<-|[]]] & <- & H1 & H2)]; [lia| |reflexivity]. cbn in H1. lia.
    + intros ->. right. exists (ex_row (Some 1) (Some 10)). cbn. repeat split; auto; lia.
  - unfold query_computes. cbn. split.
    + intros (df' & [P S] & ->). apply Permutation_length_2_inv in P. destruct P as [->| ->]; [reflexivity|].
      inversion S as [|? ? _ F]; subst. inversion F as [|? ? H _]; subst. discriminate H.
    + intros ->. exists [ex_row None (Some 20); ex_row (Some 1) (Some 10)]. split; [|reflexivity]. split; [reflexivity|]. repeat constructor.
Qed.
Print Assumptions C47_query_refuted.
(** A case: three rows, the last but one. *)
Example C47_example : forall v, computes Nat.leb (-2) true true
  [ex_row (Some 3) (Some 30); ex_row (Some 1) (Some 10); ex_row (Some 2) (Some 20); ex_row (Some 4) None] v <-> v = Some 20.
Proof.
  assert (OL : order Nat.leb) by (split; intros; rewrite ?Nat.leb_le in *; lia).
  intros v. rewrite (C47_other_direction _ _ _ _ 1). rewrite (C47_order_statistic _ _ _ _ OL 1). cbn. split.
  - intros [[H _]|(r & [<-|[<-|[<-|[]]]] & <- & H1 & H2)]; cbn in *; try lia; reflexivity.
  - intros ->. right. exists (ex_row (Some 2) (Some 20)). cbn. repeat split; auto.
Qed.

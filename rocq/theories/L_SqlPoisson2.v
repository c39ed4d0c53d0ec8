(** PoissonBootstrap: the samples of the query are the draws of pandas. *)
From Coq Require Import Reals List Bool String Arith ZArith NArith Permutation Lia Lra.
From Verif Require Import M_Num M_Frame L_Frame M_Leaf M_Ops M_Slices L_Slices M_Jackknife L_Jackknife3 M_Bootstrap M_BootSql L_BootSql L_Bootstrap3 M_SqlText M_BootCache M_SqlGlobal M_SqlLeaf S_SqlLeaf L_SqlLeaf2 M_SqlOps M_SqlJackknife M_SqlBoot S_SqlBoot L_SqlBoot2 L_SqlBoot3 P_RowOrder M_SqlPoisson S_SqlPoisson L_SqlPoisson1.
Import ListNotations.
Open Scope string_scope.
Open Scope list_scope.

Lemma map_repeat' {A B} (f : A -> B) x n : List.map f (repeat x n) = repeat (f x) n.
Proof. induction n as [|n IH]; [reflexivity|]. cbn [repeat List.map]. now rewrite IH. Qed.
Lemma flat_map_map_out {A B C} (f : B -> C) (g : A -> list B) l : List.map f (flat_map g l) = flat_map (fun x => List.map f (g x)) l.
Proof. induction l as [|x l IH]; [reflexivity|]. cbn [flat_map]. now rewrite map_app, IH. Qed.
Lemma repeat_by_map {A B} (f : A -> B) l : forall ws, List.map f (repeat_by l ws) = repeat_by (List.map f l) ws.
Proof. induction l as [|x l IH]; intros [|w ws]; try reflexivity. cbn [repeat_by List.map]. now rewrite map_app, map_repeat', IH. Qed.
Lemma repeat_by_fun {A} (w : A -> nat) l : repeat_by l (List.map w l) = flat_map (fun x => repeat x (w x)) l.
Proof. induction l as [|x l IH]; [reflexivity|]. cbn [repeat_by List.map flat_map]. now rewrite IH. Qed.
Lemma rows_repeat {A B} (F : A -> list B) (w : A -> nat) l : flat_map F (flat_map (fun x => repeat x (w x)) l) = flat_map (fun x => List.concat (repeat (F x) (w x))) l.
Proof.
  induction l as [|x l IH]; [reflexivity|]. cbn [flat_map]. rewrite flat_map_app, IH. f_equal. induction (w x) as [|n IHn]; [reflexivity|]. cbn [repeat flat_map List.concat]. now rewrite IHn.
Qed.
Lemma flat_map_repeat {A} (l : list A) n : Permutation (flat_map (fun x => repeat x n) l) (List.concat (repeat l n)).
Proof.
  induction n as [|n IH]; cbn [repeat List.concat]; [induction l; [reflexivity|assumption]|]. rewrite <- IH. clear. induction l as [|x l IH]; [reflexivity|].
  cbn [flat_map repeat]. cbn [app]. constructor. rewrite IH. rewrite !app_assoc. apply Permutation_app_tail, Permutation_app_comm.
Qed.
Lemma flat_map_ext_in {A B} (f g : A -> list B) l : (forall x, In x l -> f x = g x) -> flat_map f l = flat_map g l.
Proof. intros H. induction l as [|x l IH]; [reflexivity|]. cbn [flat_map]. rewrite H by (now left). f_equal. apply IH. intros y Hy. apply H. now right. Qed.
Lemma weight_le u : (poisson_weight u <= 18)%nat.
Proof. now destruct (proj1 (weight_exactly (poisson_weight u) u) eq_refl) as (_ & _ & H). Qed.

Section Draw.
  Variables (s : list string) (t : stable).
  Hypothesis Hlab : forall r c, In r t -> In c s -> slab r c <> None.
  Notation df := (pandas_table t).
  Section Units.
    Variable u : string.
    Hypothesis Hunit : forall r, In r t -> slab r u <> None.
    Notation units := (group_keys (s ++ [u]) df).
    Lemma unit_part r : In r t -> exists k, spart (s ++ [u]) r = Some k /\ In k units.
    Proof.
      intros Hr. assert (forall r' c, In r' t -> In c (s ++ [u]) -> slab r' c <> None) as HL by (intros r' c Hr' Hc; apply in_app_or in Hc as [Hc|[<-|[]]]; auto).
      destruct (part_some (s ++ [u]) t HL r Hr) as [k Hk]. exists k. split; [exact Hk|]. now apply (part_key (s ++ [u]) t HL r).
    Qed.
    (** repeating the rows by a function of the unit *)
    Lemma units_sample (w : list string -> nat) : Permutation (pandas_table (flat_map (fun r => match spart (s ++ [u]) r with Some k => repeat r (w k) | None => [] end) t))
      (poisson_units s u df (List.map w units)).
    Proof.
      unfold poisson_units, rows_of_units. rewrite repeat_by_fun, rows_repeat.
      rewrite (flat_map_ext_in _ (fun k => pandas_table (List.concat (repeat (filter (in_slice (spart (s ++ [u])) k) t) (w k))))); cycle 1.
      { intros k _. rewrite (slice_in (s ++ [u]) t). unfold pandas_table. rewrite concat_map, map_repeat'. reflexivity. }
      unfold pandas_table. rewrite <- (flat_map_map_out pandas_row _ units). apply Permutation_map.
      rewrite (flat_map_Perm _ _ _ _ (fun r => eq_refl) (partition_by (spart (s ++ [u])) units t (group_keys_NoDup _ _) unit_part)).
      clear. induction units as [|k ks IH]; [reflexivity|]. cbn [flat_map]. rewrite flat_map_app. apply Permutation_app; [|exact IH]. rewrite <- flat_map_repeat.
      rewrite (flat_map_ext_in _ (fun r => repeat r (w k))); [reflexivity|]. intros r Hr. apply filter_In in Hr as [_ Hr]. now rewrite (proj1 (ins_iff (spart (s ++ [u])) k r) Hr).
    Qed.
  End Units.
  Variable unit : option string.
  Hypothesis Hunit : forall u r, unit = Some u -> In r t -> slab r u <> None.
  Theorem poisson_is_draw rand fp i : exists ws, weights_up_to_18 (weight_count s unit df) ws /\
    Permutation (pandas_table (poisson_sample s unit rand fp i t)) (poisson_psample s unit df ws).
  Proof.
    destruct unit as [u|]; cbn [poisson_sample poisson_psample weight_count].
    - exists (List.map (fun k => poisson_weight (hashed_uniform fp k i)) (group_keys (s ++ [u]) df)). split.
      + split; [apply map_length|]. apply Forall_forall. intros w Hw. apply in_map_iff in Hw as (k & <- & _). apply weight_le.
      + apply (units_sample u (fun r => Hunit u r eq_refl) (fun k => poisson_weight (hashed_uniform fp k i))).
    - exists (List.map (fun j => poisson_weight (rand i j)) (seq 0 (List.length t))). split.
      + split; [rewrite map_length, seq_length; symmetry; apply map_length|]. apply Forall_forall. intros w Hw. apply in_map_iff in Hw as (k & <- & _). apply weight_le.
      + unfold poisson_rows, pandas_table. now rewrite repeat_by_map.
  Qed.

  (** a random number for each weight *)
  Definition number_for (w : nat) : R := nth w all_cutoffs 1%R.
  Lemma number_bounds w : (0 < number_for w <= 1)%R.
  Proof. unfold number_for, all_cutoffs, cutoff0, cutoffs. do 18 (destruct w as [|w]; [cbn [nth]; lra|]). destruct w; cbn [nth]; lra. Qed.
  Lemma number_weight w : (w <= 18)%nat -> poisson_weight (number_for w) = w.
  Proof.
    intros H. apply weight_exactly. pose proof number_bounds w as HB. unfold number_for in *. split; [|split; [|exact H]].
    - destruct w as [|j]; [exact I|]. assert (List.length all_cutoffs = 18)%nat as HL by reflexivity. destruct (nth_error all_cutoffs j) as [c|] eqn:E; [|apply nth_error_None in E; lia]. exists c. split; [reflexivity|].
      revert E. clear -H. unfold all_cutoffs, cutoff0, cutoffs. do 18 (destruct j as [|j]; [cbn [nth nth_error]; intros E; injection E as <-; lra|]). lia.
    - intros c E. rewrite (nth_error_nth _ _ _ E). lra.
  Qed.
  Theorem rows_every_draw (fp : string -> R) (n : nat) (weights : nat -> list nat) : unit = None -> (forall i, (1 <= i <= n)%nat -> weights_up_to_18 (weight_count s unit df) (weights i)) ->
    forall i, (1 <= i <= n)%nat -> pandas_table (poisson_sample s unit (fun i j => number_for (nth j (weights i) 0%nat)) fp i t) = poisson_psample s unit df (weights i).
  Proof.
    intros -> H i Hi. destruct (H i Hi) as [HL HF]. cbn [poisson_sample poisson_psample weight_count] in *. unfold poisson_rows, pandas_table in *. rewrite repeat_by_map. f_equal.
    rewrite map_length in HL. apply (nth_ext _ _ 0%nat 0%nat); [now rewrite map_length, seq_length|]. intros j Hj. rewrite map_length, seq_length in Hj.
    rewrite (nth_indep _ _ ((fun j => poisson_weight (number_for (nth j (weights i) 0%nat))) 0%nat)) by (now rewrite map_length, seq_length).
    rewrite (map_nth (fun j => poisson_weight (number_for (nth j (weights i) 0%nat)))), seq_nth by exact Hj. cbn [plus]. apply number_weight. rewrite Forall_forall in HF. apply HF, nth_In. lia.
  Qed.
End Draw.

(** the weight of the unit [k] in a list of weights *)
Fixpoint weight_in (ks : list (list string)) (ws : list nat) (k : list string) : nat :=
  match ks, ws with
  | k' :: ks', w :: ws' => if key_eqb k k' then w else weight_in ks' ws' k
  | _, _ => 0
  end.
Lemma weight_in_map ks : forall ws, NoDup ks -> List.length ws = List.length ks -> List.map (weight_in ks ws) ks = ws.
Proof.
  induction ks as [|k ks IH]; intros [|w ws] ND HL; try discriminate; [reflexivity|]. inversion ND as [|? ? Hk ND']; subst. cbn [List.map weight_in]. rewrite key_eqb_refl. f_equal.
  transitivity (List.map (weight_in ks ws) ks); [|apply (IH ws ND'); cbn in HL; lia]. apply map_ext_in. intros k' Hk'. destruct (key_eqb k' k) eqn:E; [|reflexivity]. apply key_eqb_eq in E. congruence.
Qed.
Lemma weight_in_le ks : forall ws k, Forall (fun w => (w <= 18)%nat) ws -> (weight_in ks ws k <= 18)%nat.
Proof. induction ks as [|k' ks IH]; intros [|w ws] k H; cbn [weight_in]; try lia. inversion H; subst. destruct (key_eqb k k'); auto. Qed.
Section EveryUnits.
  Variables (s : list string) (u : string) (t : stable) (n : nat) (weights : nat -> list nat).
  Notation df := (pandas_table t).
  Notation units := (group_keys (s ++ [u]) df).
  Hypothesis Hlab : forall r c, In r t -> In c s -> slab r c <> None.
  Hypothesis Hunit : forall r, In r t -> slab r u <> None.
  Hypothesis Hw : forall i, (1 <= i <= n)%nat -> weights_up_to_18 (weight_count s (Some u) df) (weights i).
  Hypothesis Htext : texts_differ n units.
  Definition hit (x : string) (ki : list string * nat) : bool := String.eqb (hashed_text (fst ki) (snd ki)) x.
  Definition fp_for (x : string) : R :=
    match find (hit x) (list_prod units (seq 1 n)) with Some (k, i) => number_for (weight_in units (weights i) k) | None => 1%R end.
  Lemma fp_for_bounds x : (0 < fp_for x <= 1)%R.
  Proof. unfold fp_for. destruct (find _ _) as [[k i]|]; [apply number_bounds|lra]. Qed.
  Lemma fp_for_text k i : In k units -> (1 <= i <= n)%nat -> fp_for (hashed_text k i) = number_for (weight_in units (weights i) k).
  Proof.
    intros Hk Hi. unfold fp_for. destruct (find (hit (hashed_text k i)) (list_prod units (seq 1 n))) as [[k' i']|] eqn:E.
    - apply find_some in E as [E1 E2]. apply in_prod_iff in E1 as [E1 E3]. apply in_seq in E3. apply String.eqb_eq in E2. cbn [fst snd] in E2.
      destruct (Htext k' k i' i E1 Hk) as [-> ->]; [lia|lia|exact E2|reflexivity].
    - exfalso. pose proof (find_none _ _ E (k, i)) as F. unfold hit in F. cbn [fst snd] in F. rewrite String.eqb_refl in F. discriminate F. apply in_prod_iff. split; [exact Hk|]. apply in_seq. lia.
  Qed.
  Theorem units_every_draw rand i : (1 <= i <= n)%nat -> Permutation (pandas_table (poisson_sample s (Some u) rand fp_for i t)) (poisson_psample s (Some u) df (weights i)).
  Proof.
    intros Hi. destruct (Hw i Hi) as [HL HF]. cbn [poisson_sample poisson_psample weight_count] in *. rewrite <- (weight_in_map units (weights i) (group_keys_NoDup _ _) HL).
    rewrite <- (units_sample s t Hlab u Hunit (weight_in units (weights i))). unfold pandas_table. apply Permutation_map.
    rewrite (flat_map_ext_in _ (fun r => match spart (s ++ [u]) r with Some k => repeat r (weight_in units (weights i) k) | None => [] end)); [reflexivity|].
    intros r Hr. destruct (unit_part s t Hlab u Hunit r Hr) as (k & -> & Hk). f_equal. change (hashed_uniform fp_for k i) with (fp_for (hashed_text k i)). rewrite fp_for_text by assumption. apply number_weight. now apply weight_in_le.
  Qed.
End EveryUnits.

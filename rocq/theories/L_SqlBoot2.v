(** The samples drawn by the query and by pandas. *)
From Coq Require Import Reals List Bool String Arith ZArith Permutation Lia Lra.
From Verif Require Import M_Num M_Frame L_Frame M_Ops M_Slices L_Slices M_Jackknife M_Bootstrap M_BootSql L_BootSql M_SqlGlobal M_SqlLeaf M_SqlOps M_SqlJackknife M_SqlBoot S_SqlLeaf S_SqlOps S_SqlJackknife S_SqlBoot.
From Verif Require L_Bootstrap L_SqlOps L_SqlOps2 L_RowOrder L_Jackknife.
Import ListNotations.
Open Scope list_scope.
Open Scope nat_scope.

(** Finite choice *)
Lemma choose_keys {B} (P : list string -> B -> Prop) (d : B) Ks : (forall k, In k Ks -> exists b, P k b) -> exists D, forall k, In k Ks -> P k (D k).
Proof.
  induction Ks as [|k Ks IH]; intros H; [exists (fun _ => d); intros k []|].
  destruct IH as [D HD]; [intros k' Hk; apply H; now right|]. destruct (H k (or_introl eq_refl)) as [b Hb].
  exists (fun k' => if list_eq_dec string_dec k' k then b else D k'). intros k' Hk. destruct (list_eq_dec string_dec k' k) as [->|Hne]; [exact Hb|]. destruct Hk as [->|Hk]; [congruence|auto].
Qed.
Lemma choose_nat {B} (P : nat -> B -> Prop) (d : B) l : (forall i, In i l -> exists b, P i b) -> exists D, forall i, In i l -> P i (D i).
Proof.
  induction l as [|i l IH]; intros H; [exists (fun _ => d); intros i []|].
  destruct IH as [D HD]; [intros k' Hk; apply H; now right|]. destruct (H i (or_introl eq_refl)) as [b Hb].
  exists (fun j => if Nat.eq_dec j i then b else D j). intros j Hj. destruct (Nat.eq_dec j i) as [->|Hne]; [exact Hb|]. destruct Hj as [->|Hj]; [congruence|auto].
Qed.

(** Every list of members of [g] is a draw. *)
Lemma pick_positions {A} (g l : list A) : incl l g -> exists ds, List.length ds = List.length l /\ Forall (fun d => d < List.length g) ds /\ pick g ds = l.
Proof.
  induction l as [|x l IH]; intros H; [exists []; repeat split; constructor|].
  destruct IH as (ds & H1 & H2 & H3); [intros y Hy; apply H; now right|]. destruct (In_nth_error g x (H x (or_introl eq_refl))) as [d Hd].
  exists (d :: ds). cbn [List.length]. rewrite H1. split; [reflexivity|]. split; [constructor; [apply nth_error_Some; congruence|exact H2]|]. unfold pick in *. cbn [flat_map]. now rewrite Hd, H3.
Qed.
Lemma pick_length {A} (g : list A) ds : Forall (fun d => d < List.length g) ds -> List.length (pick g ds) = List.length ds.
Proof. induction 1 as [|d ds Hd _ IH]; [reflexivity|]. unfold pick in *. cbn [flat_map]. rewrite app_length, IH. destruct (nth_error g d) eqn:E; [reflexivity|]. apply nth_error_None in E. lia. Qed.
Lemma sample_groups_maps {A} (F : list string -> list A) (D : list string -> list nat) Ks : sample_groups (List.map F Ks) (List.map D Ks) = flat_map (fun k => pick (F k) (D k)) Ks.
Proof. induction Ks as [|k Ks IH]; [reflexivity|]. cbn [List.map sample_groups flat_map]. now rewrite IH. Qed.
Lemma draw_as_map {A} (F : list string -> list A) Ks ds : NoDup Ks -> possible_draw (List.map (fun k => List.length (F k)) Ks) ds ->
  exists D, ds = List.map D Ks /\ forall k, In k Ks -> List.length (D k) = List.length (F k) /\ Forall (fun d => d < List.length (F k)) (D k).
Proof.
  unfold possible_draw. intros ND. revert ds. induction ND as [|k Ks Hk ND IH]; intros ds H; inversion H as [|? d ? ds' Hd Hds]; subst; [exists (fun _ => []); split; [reflexivity|intros k []]|].
  destruct (IH ds' Hds) as (D & -> & HD). exists (fun k' => if list_eq_dec string_dec k' k then d else D k'). split.
  - cbn [List.map]. destruct (list_eq_dec string_dec k k) as [_|]; [|congruence]. f_equal. apply map_ext_in. intros k' Hk'. destruct (list_eq_dec string_dec k' k) as [->|]; [contradiction|reflexivity].
  - intros k' Hk'. destruct (list_eq_dec string_dec k' k) as [->|Hne]; [exact Hd|]. destruct Hk' as [->|Hk']; [congruence|auto].
Qed.
Lemma map_is_draw {A} (F : list string -> list A) D Ks : (forall k, In k Ks -> List.length (D k) = List.length (F k) /\ Forall (fun d => d < List.length (F k)) (D k)) ->
  possible_draw (List.map (fun k => List.length (F k)) Ks) (List.map D Ks).
Proof. unfold possible_draw. induction Ks as [|k Ks IH]; intros H; cbn [List.map]; constructor; [apply H; now left|apply IH; intros k' Hk; apply H; now right]. Qed.

Section Draw.
  Context {A : Type}.
  Variable part : A -> option (list string).
  Notation all_true := (fun _ : A => Some true).
  Notation ins := (in_slice part).
  Lemma chosen_in k r : chosen part all_true k r = ins k r.
  Proof. unfold chosen. apply andb_true_r. Qed.
  Lemma ins_iff k r : ins k r = true <-> part r = Some k.
  Proof. unfold in_slice. destruct (part r) as [p|]; [|split; discriminate]. rewrite key_eqb_eq. split; congruence. Qed.
  Lemma partition_by Ks (l : list A) : NoDup Ks -> (forall r, In r l -> exists k, part r = Some k /\ In k Ks) -> Permutation l (flat_map (fun k => filter (ins k) l) Ks).
  Proof.
    intros ND H. induction l as [|r l IH]; [clear; induction Ks; [constructor|assumption]|].
    destruct (H r (or_introl eq_refl)) as (k & Ek & Hk). specialize (IH (fun r' Hr => H r' (or_intror Hr))).
    apply in_split in Hk as (a & b & ->). rewrite flat_map_app in *. cbn [flat_map] in *.
    assert (forall K, ~ In k K -> flat_map (fun k' => filter (ins k') (r :: l)) K = flat_map (fun k' => filter (ins k') l) K) as E.
    { induction K as [|k' K IHK]; intros Hn; [reflexivity|]. cbn [flat_map]. rewrite IHK by (intros Hi; apply Hn; now right). cbn [filter]. destruct (ins k' r) eqn:Q; [|reflexivity]. apply ins_iff in Q. exfalso. apply Hn. left. congruence. }
    apply NoDup_remove_2 in ND. rewrite !E by (intros Hi; apply ND, in_or_app; auto). cbn [filter]. rewrite (proj2 (ins_iff k r) Ek). cbn [app]. rewrite <- Permutation_middle. now constructor.
  Qed.
  Variables (i : nat) (t t' : list A) (Ks : list (list string)).
  Hypothesis Hp : Permutation t' t.
  Hypothesis Hnd : NoDup Ks.
  Hypothesis Hk : forall r, In r t -> exists k, part r = Some k /\ In k Ks.
  Lemma slice_perm_by k : Permutation (filter (ins k) t') (filter (ins k) t).
  Proof. now apply L_SqlOps.filter_perm. Qed.
  Lemma row_In rand r : In r (bootstrap_by_row part all_true rand i t') -> In r t.
  Proof.
    unfold bootstrap_by_row, joined. intros H. apply filter_In in H as [H _]. apply in_flat_map in H as (a & _ & H). apply in_map_iff in H as ([b m] & <- & H). apply filter_In in H as [H _]. cbn [fst].
    apply (Permutation_in _ Hp). unfold row_numbers in H. revert H. generalize (@nil A). clear. induction t' as [|x t IH]; intros seen H; [destruct H|]. cbn [number_from] in H. destruct H as [H|H]; [injection H as -> _; now left|right; eauto].
  Qed.
  Lemma resample_parts rand (u := fun j => rand i j) : (forall j, (0 < rand i j <= 1)%R) -> let B := bootstrap_by_row part all_true rand i t' in
    Permutation B (flat_map (fun k => filter (ins k) B) Ks) /\
    forall k, filter (ins k) B = pick (filter (ins k) t') (draws part all_true rand k i t').
  Proof.
    intros HR B. split.
    - apply partition_by; [exact Hnd|]. intros r Hr. apply row_In in Hr. now apply Hk.
    - intros k. unfold B. rewrite slice_result by exact HR. f_equal. apply filter_ext. intros r. apply chosen_in.
  Qed.
  Theorem row_is_draw rand : (forall j, (0 < rand i j <= 1)%R) -> exists ds, possible_draw (List.map (fun k => List.length (filter (ins k) t)) Ks) ds /\
    Permutation (bootstrap_by_row part all_true rand i t') (sample_groups (List.map (fun k => filter (ins k) t) Ks) ds).
  Proof.
    intros HR. destruct (resample_parts rand HR) as [H1 H2]. set (B := bootstrap_by_row part all_true rand i t') in *.
    destruct (choose_keys (fun k ds => List.length ds = List.length (filter (ins k) t) /\ Forall (fun d => d < List.length (filter (ins k) t)) ds /\ pick (filter (ins k) t) ds = filter (ins k) B) [] Ks) as [D HD].
    { intros k _. destruct (draws_valid part all_true rand k i t' HR) as [V1 V2]. assert (filter (chosen part all_true k) t' = filter (ins k) t') as E by (apply filter_ext; intros r; apply chosen_in). rewrite E in V1, V2.
      destruct (pick_positions (filter (ins k) t) (filter (ins k) B)) as (ds & E1 & E2 & E3).
      - rewrite H2. intros r Hr. apply L_Bootstrap.pick_In in Hr. apply (Permutation_in _ (slice_perm_by k)). exact Hr.
      - exists ds. rewrite E1, H2, pick_length by exact V2. rewrite V1. split; [apply Permutation_length, slice_perm_by|]. split; [exact E2|]. now rewrite <- H2. }
    exists (List.map D Ks). split; [apply map_is_draw; intros k Hi; destruct (HD k Hi) as (A1 & A2 & _); auto|].
    rewrite sample_groups_maps. etransitivity; [exact H1|]. apply L_Bootstrap.perm_flat_map. intros k Hi. destruct (HD k Hi) as (_ & _ & ->). reflexivity.
  Qed.

  (** Every draw *)
  Lemma positions_nodup k (l : list A) : NoDup (slice_positions part all_true k l).
  Proof.
    unfold slice_positions. generalize (seq_NoDup (List.length l) 0). generalize (seq 0 (List.length l)). induction l as [|r l IH]; intros [|j js] H; try constructor.
    inversion H; subst. cbn [combine filter snd]. destruct (chosen part all_true k r); [|apply IH; auto]. cbn [List.map fst]. constructor; [|apply IH; auto].
    intros X. apply in_map_iff in X. destruct X as [[j' r'] [<- X]]. apply filter_In in X. destruct X as [X _]. apply in_combine_l in X. auto.
  Qed.
  Lemma combine_seq_nth (l : list A) : forall s0 j r, In (j, r) (combine (seq s0 (List.length l)) l) -> nth_error l (j - s0) = Some r /\ s0 <= j.
  Proof.
    induction l as [|x l IH]; intros s0 j r H; [destruct H|]. cbn [List.length seq combine] in H. destruct H as [H|H].
    - injection H as -> ->. rewrite Nat.sub_diag. auto.
    - apply IH in H as [H1 H2]. replace (j - s0) with (S (j - S s0)) by lia. cbn [nth_error]. split; [exact H1|lia].
  Qed.
  Lemma position_part k j : In j (slice_positions part all_true k t') -> exists r, nth_error t' j = Some r /\ part r = Some k.
  Proof.
    unfold slice_positions. intros H. apply in_map_iff in H as ([j' r] & <- & H). apply filter_In in H as [H Hc]. cbn [fst snd] in *. rewrite chosen_in in Hc. apply ins_iff in Hc. apply combine_seq_nth in H as [H _]. rewrite Nat.sub_0_r in H. eauto.
  Qed.
  Lemma find_combine (js : list nat) : forall (ds : list nat) j d, NoDup js -> In (j, d) (combine js ds) -> find (fun jd => Nat.eqb (fst jd) j) (combine js ds) = Some (j, d).
  Proof.
    induction js as [|x l IH]; intros ds j d ND Hjd; [destruct Hjd|]. destruct ds as [|y ds]; [destruct Hjd|]. inversion ND; subst. cbn [combine find fst].
    destruct Hjd as [E|Hjd]; [injection E as -> ->; now rewrite Nat.eqb_refl|]. destruct (Nat.eqb_spec x j) as [->|]; [exfalso; apply in_combine_l in Hjd; auto|]. now apply IH.
  Qed.
  Theorem draw_is_row ds : possible_draw (List.map (fun k => List.length (filter (ins k) t)) Ks) ds ->
    exists u : nat -> R, (forall j, (0 < u j <= 1)%R) /\
      forall rand, (forall j, rand i j = u j) -> Permutation (bootstrap_by_row part all_true rand i t') (sample_groups (List.map (fun k => filter (ins k) t) Ks) ds).
  Proof.
    intros H. destruct (draw_as_map (fun k => filter (ins k) t) Ks ds Hnd H) as (D0 & -> & HD0).
    destruct (choose_keys (fun k d => List.length d = List.length (filter (ins k) t') /\ Forall (fun x => x < List.length (filter (ins k) t')) d /\ pick (filter (ins k) t') d = pick (filter (ins k) t) (D0 k)) [] Ks) as [D HD].
    { intros k Hi. destruct (HD0 k Hi) as [L1 L2]. destruct (pick_positions (filter (ins k) t') (pick (filter (ins k) t) (D0 k))) as (d & E1 & E2 & E3).
      - intros r Hr. apply L_Bootstrap.pick_In in Hr. apply (Permutation_in _ (Permutation_sym (slice_perm_by k))). exact Hr.
      - exists d. rewrite E1, pick_length, L1 by exact L2. split; [symmetry; apply Permutation_length, slice_perm_by|]. auto. }
    set (ku := fun k j => match find (fun jd => Nat.eqb (fst jd) j) (combine (slice_positions part all_true k t') (D k)) with Some jd => (INR (S (snd jd)) / INR (List.length (filter (ins k) t')))%R | None => 1%R end).
    set (u := fun j => match nth_error t' j with Some r => match part r with Some k => if in_dec (list_eq_dec string_dec) k Ks then ku k j else 1%R | None => 1%R end | None => 1%R end).
    assert (forall j, (0 < u j <= 1)%R) as U.
    { intros j. unfold u. destruct (nth_error t' j) as [r|]; [|lra]. destruct (part r) as [k|]; [|lra]. destruct (in_dec _ k Ks) as [Hi|]; [|lra]. unfold ku. destruct (find _ _) as [[j' d]|] eqn:E; [|lra]. apply find_some in E as [E _]. apply in_combine_r in E. cbn [snd].
      destruct (HD k Hi) as (_ & HF & _). rewrite Forall_forall in HF. apply HF in E. set (n := List.length (filter (ins k) t')) in *. assert (0 < INR n)%R by (apply lt_0_INR; lia). assert (INR (S d) <= INR n)%R by (apply le_INR; lia).
      assert (0 < INR (S d))%R by (apply lt_0_INR; lia). split; [apply Rdiv_lt_0_compat; lra|]. apply Rmult_le_reg_r with (INR n); [lra|]. unfold Rdiv. rewrite Rmult_assoc, Rinv_l by lra. lra. }
    exists u. split; [exact U|]. intros rand Hrand. assert (forall j, (0 < rand i j <= 1)%R) as HR by (intros j; rewrite Hrand; apply U).
    destruct (resample_parts rand HR) as [H1 H2]. rewrite sample_groups_maps. etransitivity; [exact H1|]. apply L_Bootstrap.perm_flat_map. intros k Hi. rewrite H2. destruct (HD k Hi) as (L1 & L2 & L3). rewrite <- L3.
    assert (draws part all_true rand k i t' = D k) as ->; [|reflexivity].
    assert (filter (chosen part all_true k) t' = filter (ins k) t') as E by (apply filter_ext; intros r; apply chosen_in). pose proof (positions_length part all_true k t') as PL. rewrite E in PL.
    unfold draws. rewrite E. pose proof (positions_nodup k t') as PN. pose proof (position_part k) as PP.
    assert (forall j d, In (j, d) (combine (slice_positions part all_true k t') (D k)) -> Z.to_nat (ceiling (rand i j * INR (List.length (filter (ins k) t'))) - 1) = d) as HE.
    { intros j d Hjd. assert (Hd : d < List.length (filter (ins k) t')) by (rewrite Forall_forall in L2; apply L2; eapply in_combine_r; eauto). apply draw_interval; [lia|apply HR|]. rewrite Hrand.
      assert (u j = (INR (S d) / INR (List.length (filter (ins k) t')))%R) as ->.
      { unfold u. destruct (PP j (in_combine_l _ _ _ _ Hjd)) as (r & -> & ->). destruct (in_dec _ k Ks); [|contradiction]. unfold ku. now rewrite (find_combine _ _ _ _ PN Hjd). }
      split; [|lra]. unfold Rdiv. apply Rmult_lt_compat_r; [apply Rinv_0_lt_compat, lt_0_INR; lia|]. apply lt_INR. lia. }
    assert (List.length (slice_positions part all_true k t') = List.length (D k)) as HL by congruence. clear - HL HE. revert HL HE. generalize (D k). induction (slice_positions part all_true k t') as [|j l IH]; intros [|d ds] HL HE; try discriminate; [reflexivity|]. cbn [List.map]. f_equal.
    - apply HE. now left.
    - apply IH; [cbn in HL; lia|]. intros j' d' X. apply HE. now right.
  Qed.
End Draw.

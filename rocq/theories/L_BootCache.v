From Coq Require Import List Bool String Arith NArith Lia FinFun.
From Verif Require Import M_Num M_Frame M_Bootstrap M_SqlText M_BootCache.
Import ListNotations.
Open Scope list_scope.

Section C39.
  Context {T V D : Type}.
  Variables (child : T -> option V) (key : D -> sample_key) (data : D -> T).
  Hypothesis key_identifies : forall d d', key d = key d' -> data d = data d'.
  Definition wanted (draws : list D) : list V := flat_map (fun d => match child (data d) with Some v => [v] | None => [] end) draws.
  Definition right (c : bcache) : Prop := forall d v, cached (key d) c = Some v -> child (data d) = Some v.

  Lemma cached_cons k v (c : @bcache V) k' : cached k' ((k, v) :: c) = if list_eq_dec (list_eq_dec string_dec) k k' then Some v else cached k' c.
  Proof. reflexivity. Qed.
  Lemma reuse draws : forall sampled c, right c ->
    (forall d, In (key d) sampled -> child (data d) = None \/ cached (key d) c <> None) ->
    fst (compute_on_samples child c (yield_samples true key data sampled draws)) = wanted draws.
  Proof.
    induction draws as [|d draws IH]; intros sampled c R S; [reflexivity|].
    simpl yield_samples. unfold wanted. cbn [flat_map]. fold (wanted draws).
    destruct (in_dec (list_eq_dec (list_eq_dec string_dec)) (key d) sampled) as [I|I].
    - cbn [compute_on_samples]. destruct (cached (key d) c) as [v|] eqn:C.
      + pose proof (R _ _ C) as E. rewrite E. specialize (IH sampled c R S).
        destruct (compute_on_samples child c _) as [es c']. simpl in *. congruence.
      + destruct (S d I) as [E|E]; [|congruence]. rewrite E. simpl. now apply IH.
    - cbn [compute_on_samples]. destruct (cached (key d) c) as [v|] eqn:C.
      + pose proof (R _ _ C) as E. rewrite E.
        assert (S' : forall d', In (key d') (key d :: sampled) -> child (data d') = None \/ cached (key d') c <> None).
        { intros d' [H|H]; auto. right. rewrite <- H. congruence. }
        specialize (IH (key d :: sampled) c R S').
        destruct (compute_on_samples child c _) as [es c']. simpl in *. congruence.
      + destruct (child (data d)) as [v|] eqn:E.
        * assert (R' : right ((key d, v) :: c)).
          { intros d' v'. rewrite cached_cons. destruct (list_eq_dec (list_eq_dec string_dec) (key d) (key d')) as [Q|Q]; auto.
            intros H. injection H as <-. now rewrite <- (key_identifies _ _ Q). }
          assert (S' : forall d', In (key d') (key d :: sampled) -> child (data d') = None \/ cached (key d') ((key d, v) :: c) <> None).
          { intros d' H. rewrite cached_cons. destruct (list_eq_dec (list_eq_dec string_dec) (key d) (key d')) as [Q|Q]; [right; discriminate|].
            destruct H as [H|H]; [congruence|auto]. }
          specialize (IH (key d :: sampled) ((key d, v) :: c) R' S').
          destruct (compute_on_samples child ((key d, v) :: c) _) as [es c']. simpl in *. congruence.
        * simpl. apply IH; auto. intros d' [H|H]; auto. left. now rewrite <- (key_identifies _ _ H).
  Qed.
  Lemma no_reuse draws : forall sampled c, fst (compute_on_samples child c (yield_samples false key data sampled draws)) = wanted draws.
  Proof.
    induction draws as [|d draws IH]; intros sampled c; [reflexivity|].
    cbn [yield_samples compute_on_samples]. unfold wanted. cbn [flat_map]. fold (wanted draws).
    specialize (IH sampled c). destruct (compute_on_samples child c _) as [es c']. simpl in *. destruct (child (data d)); simpl; congruence.
  Qed.
  (** The cache left behind is right too. *)
  Lemma cache_stays_right draws : forall sampled c, right c -> right (snd (compute_on_samples child c (yield_samples true key data sampled draws))).
  Proof.
    induction draws as [|d draws IH]; intros sampled c R; [exact R|].
    assert (R' : forall v, child (data d) = Some v -> right ((key d, v) :: c)).
    { intros v E d' v'. rewrite cached_cons. destruct (list_eq_dec (list_eq_dec string_dec) (key d) (key d')) as [Q|Q]; auto.
      intros H. injection H as <-. now rewrite <- (key_identifies _ _ Q). }
    simpl yield_samples. destruct (in_dec (list_eq_dec (list_eq_dec string_dec)) (key d) sampled); cbn [compute_on_samples]; destruct (cached (key d) c) eqn:C.
    - specialize (IH sampled c R). destruct (compute_on_samples child c _); auto.
    - auto.
    - specialize (IH (key d :: sampled) c R). destruct (compute_on_samples child c _); auto.
    - destruct (child (data d)) as [v|] eqn:E; auto.
      specialize (IH (key d :: sampled) ((key d, v) :: c) (R' v eq_refl)). destruct (compute_on_samples child ((key d, v) :: c) _); auto.
  Qed.
  Lemma wanted_all draws : (forall d, In d draws -> child (data d) <> None) -> List.length (wanted draws) = List.length draws.
  Proof.
    induction draws as [|d draws IH]; intros H; [reflexivity|]. unfold wanted. cbn [flat_map]. fold (wanted draws).
    rewrite app_length, IH by (intros; apply H; simpl; auto). destruct (child (data d)) eqn:E; [reflexivity|]. exfalso. apply (H d); simpl; auto.
  Qed.
End C39.

Lemma batches_sum n b : b <> 0 -> list_sum (batches n b) = n.
Proof.
  intros H. unfold batches. rewrite list_sum_app.
  assert (E : list_sum (repeat b (n / b)) = b * (n / b)) by (induction (n / b); simpl; lia).
  rewrite E. pose proof (Nat.div_mod n b H). destruct (Nat.eqb_spec (n mod b) 0); simpl; lia.
Qed.
Lemma batches_small n b m : b <> 0 -> In m (batches n b) -> 1 <= m <= b.
Proof.
  intros H. unfold batches. rewrite in_app_iff. intros [I|I].
  - apply repeat_spec in I. lia.
  - destruct (Nat.eqb_spec (n mod b) 0); simpl in I; [tauto|]. destruct I as [<-|[]]. pose proof (Nat.mod_upper_bound n b H). lia.
Qed.
Lemma batch_results_length {V} (resample : nat -> nat -> V) n b : b <> 0 -> List.length (batch_results resample n b) = n.
Proof.
  intros H. rewrite <- (batches_sum n b H) at 2. unfold batch_results.
  assert (G : forall l s, List.length (List.concat (List.map (fun bs => List.map (resample (fst bs)) (seq 1 (snd bs))) (combine (seq s (List.length l)) l))) = list_sum l); [|apply G].
  induction l as [|m l IH]; intros s; [reflexivity|]. cbn [List.length seq combine List.map List.concat list_sum fst snd].
  now rewrite app_length, map_length, seq_length, IH.
Qed.
(** Numbering the pairs (batch, index): no pair twice. *)
Lemma pairs_NoDup l : forall s, NoDup (List.concat (List.map (fun bs => List.map (fun i => (fst bs, i)) (seq 1 (snd bs))) (combine (seq s (List.length l)) l))).
Proof.
  assert (LB : forall l s p, In p (List.concat (List.map (fun bs => List.map (fun i => (fst bs, i)) (seq 1 (snd bs))) (combine (seq s (List.length l)) l))) -> s <= fst p).
  { induction l0 as [|m l0 IH]; intros s p H; [destruct H|]. simpl in H. apply in_app_or in H. destruct H as [H|H].
    - apply in_map_iff in H. destruct H as [i [<- _]]. simpl. lia.
    - apply IH in H. lia. }
  induction l as [|m l IH]; intros s; [constructor|]. simpl.
  assert (ND : NoDup (List.map (fun i : nat => (s, i)) (seq 1 m))).
  { apply Injective_map_NoDup; [intros i j E; congruence|apply seq_NoDup]. }
  assert (DJ : forall p, In p (List.map (fun i : nat => (s, i)) (seq 1 m)) -> ~ In p (List.concat (List.map (fun bs => List.map (fun i => (fst bs, i)) (seq 1 (snd bs))) (combine (seq (S s) (List.length l)) l)))).
  { intros p H1 H2. apply LB in H2. apply in_map_iff in H1. destruct H1 as [i [<- _]]. simpl in H2. lia. }
  revert ND DJ. generalize (List.map (fun i : nat => (s, i)) (seq 1 m)) as a. specialize (IH (S s)).
  induction a as [|y a IHa]; intros ND DJ; simpl; auto. inversion ND; subst. constructor.
  - rewrite in_app_iff. intros [H|H]; auto. apply (DJ y); simpl; auto.
  - apply IHa; auto. intros p Hp. apply DJ. simpl; auto.
Qed.
Lemma pairs_distinct n b : NoDup (batch_results pair n b).
Proof. apply pairs_NoDup. Qed.
Lemma batch_results_pairs {V} (resample : nat -> nat -> V) n b : batch_results resample n b = List.map (fun p => resample (fst p) (snd p)) (batch_results pair n b).
Proof.
  unfold batch_results. rewrite concat_map, map_map. f_equal. apply map_ext. intros bs. now rewrite map_map.
Qed.

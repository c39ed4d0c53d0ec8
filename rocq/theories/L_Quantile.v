From Coq Require Import Reals List Bool ZArith Lia Lra Sorted.
From Verif Require Import M_Num M_NxxFloat M_Quantile L_Frame.
Import ListNotations.
Open Scope list_scope.
Open Scope R_scope.

Definition increasing (ks : list (R * R)) : Prop := StronglySorted (fun a b => fst a < fst b) ks.
Lemma add_weight_In v w pts p : In p (add_weight v w pts) -> fst p = v \/ exists p', In p' pts /\ fst p = fst p'.
Proof.
  induction pts as [|[v' w'] pts IH]; cbn [add_weight]; [intros [<-|[]]; auto|].
  destruct (Rlt_dec v v'); [intros [<-|H]; [auto|right; eauto]|].
  destruct (Req_EM_T v v').
  - intros [<-|H]; [right; exists (v', w'); cbn; auto|right; exists p; cbn; auto].
  - intros [<-|H]; [right; exists (v', w'); cbn; auto|]. destruct (IH H) as [?|[p' [? ?]]]; auto. right. exists p'. cbn; auto.
Qed.
Lemma add_weight_sorted v w pts : increasing pts -> increasing (add_weight v w pts).
Proof.
  unfold increasing. induction pts as [|[v' w'] pts IH]; intros H; cbn [add_weight]; [repeat constructor|].
  inversion H as [|? ? H1 H2]; subst. destruct (Rlt_dec v v') as [L|N].
  - constructor; auto. constructor; auto. eapply Forall_impl; [|exact H2]. cbn. intros; lra.
  - destruct (Req_EM_T v v') as [->|N'].
    + constructor; auto.
    + constructor; auto. apply Forall_forall. intros p Hp. cbn. apply add_weight_In in Hp. destruct Hp as [->|[p' [Hp ->]]]; [lra|]. rewrite Forall_forall in H2. apply (H2 p' Hp).
Qed.
Lemma aggregate_sorted rows : increasing (aggregate rows).
Proof. induction rows; cbn; [constructor|]. now apply add_weight_sorted. Qed.
Lemma add_weight_pos v w pts : 0 < w -> Forall (fun p => 0 < snd p) pts -> Forall (fun p => 0 < snd p) (add_weight v w pts).
Proof.
  intros Hw. induction 1 as [|[v' w'] pts Hp H IH]; cbn [add_weight]; [repeat constructor; auto|].
  destruct (Rlt_dec v v'); [repeat constructor; auto|]. destruct (Req_EM_T v v'); constructor; auto. cbn in *. lra.
Qed.
Lemma aggregate_pos rows : Forall (fun r => 0 < snd r) rows -> Forall (fun p => 0 < snd p) (aggregate rows).
Proof. induction 1 as [|[v w] rows Hr H IH]; cbn; [constructor|]. now apply add_weight_pos. Qed.
Lemma total_pos pts : Forall (fun p => 0 < snd p) pts -> pts <> [] -> 0 < total pts.
Proof.
  intros H. unfold total. induction H as [|p pts Hp H IH]; [congruence|]. intros _. cbn [List.map Rsum]. destruct pts as [|p' pts']; [cbn; lra|].
  assert (0 < Rsum (List.map snd (p' :: pts'))) by (apply IH; discriminate). lra.
Qed.
Lemma knots_from_increasing acc W pts : 0 < W -> Forall (fun p => 0 < snd p) pts ->
  increasing (knots_from acc W pts) /\ Forall (fun k => acc / W < fst k) (knots_from acc W pts).
Proof.
  intros HW H. revert acc. induction H as [|[v w] pts Hp H IH]; intros acc; [split; constructor|]. cbn [knots_from]. destruct (IH (acc + w)) as [I1 I2]. cbn in Hp.
  assert (D : forall a b, a < b -> a / W < b / W) by (intros; apply Rmult_lt_compat_r; [apply Rinv_0_lt_compat; lra|lra]).
  split.
  - constructor; auto. eapply Forall_impl; [|exact I2]. cbn. intros k Hk. assert ((acc + w - 0.5 * w) / W < (acc + w) / W) by (apply D; lra). lra.
  - constructor; [cbn; apply D; lra|]. eapply Forall_impl; [|exact I2]. cbn. intros k Hk. assert (acc / W < (acc + w) / W) by (apply D; lra). lra.
Qed.
Lemma knots_increasing pts : Forall (fun p => 0 < snd p) pts -> increasing (knots pts).
Proof. intros H. destruct pts as [|p pts]; [constructor|]. apply knots_from_increasing; auto. apply total_pos; auto. discriminate. Qed.

Ltac cases := repeat match goal with
  | |- context[Rlt_dec ?a ?b] => destruct (Rlt_dec a b)
  | |- context[Rle_dec ?a ?b] => destruct (Rle_dec a b) end; try (exfalso; lra).
(** nothing from knots above q *)
Lemma sum_above q ks : Forall (fun k => q < fst k) ks -> sql_sum false q ks = 0.
Proof.
  induction 1 as [|[k v] ks Hk H IH]; [reflexivity|]. cbn [sql_sum]. rewrite IH. cbn in Hk. unfold sql_term. cbn [andb orb].
  destruct (hd_error ks) as [[k' v']|]; cases; lra.
Qed.
Lemma term_right q k v k' v' first : k < k' -> k < q -> q <= k' -> sql_term first q k v (Some (k', v')) = (v' * (q - k) + (k' - q) * v) / (k' - k).
Proof. intros. unfold sql_term. cases; destruct first; cbn; reflexivity. Qed.
Lemma term_above q k v k' v' first : k < k' -> k' < q -> sql_term first q k v (Some (k', v')) = 0.
Proof. intros. unfold sql_term. cases; destruct first; cbn; reflexivity. Qed.
Lemma term_at k v k' v' first : k < k' -> sql_term first k k v (Some (k', v')) = v.
Proof. intros. unfold sql_term. cases; destruct first; cbn; field; lra. Qed.
(** q is not a knot with a knot on both sides *)
Fixpoint interior (q : R) (ks : list (R * R)) : Prop :=
  match ks with
  | _ :: ks' => match ks' with (k, _) :: _ :: _ => q = k \/ interior q ks' | _ => False end
  | [] => False
  end.
Lemma sum_off q ks : increasing ks -> forall k v ks', ks = (k, v) :: ks' -> k < q -> ~ interior q ks -> sql_sum false q ks = interp q ks.
Proof.
  induction 1 as [|[k0 v0] ks HS IH HF]; intros k v ks' E Hk HI; [discriminate|]. injection E as -> -> ->. cbn [sql_sum interp].
  destruct ks' as [|[k1 v1] ks']; cbn [hd_error].
  - cbn [sql_sum]. unfold sql_term. cases; cbn; lra.
  - inversion HF as [|? ? H01 HF']; subst. cbn in H01. destruct (Rle_dec q k); [lra|]. destruct (Rlt_dec q k1) as [L|N].
    + rewrite term_right by lra. rewrite sum_above.
      * field. lra.
      * inversion HS as [|? ? HS' HF1]; subst. constructor; [exact L|]. eapply Forall_impl; [|exact HF1]. cbn. intros; lra.
    + destruct (Req_dec q k1) as [->|Hne].
      * destruct ks' as [|p ks']; [|exfalso; apply HI; cbn; destruct p; auto].
        rewrite term_right by lra. cbn [sql_sum hd_error interp]. unfold sql_term. cases; cbn; field; lra.
      * assert (HI' : ~ interior q ((k1, v1) :: ks')) by (intros X; apply HI; cbn in *; destruct ks'; [contradiction|right; exact X]).
        rewrite term_above by lra. rewrite (IH k1 v1 ks' eq_refl) by (assumption || lra). lra.
Qed.
Lemma first_same q k v next : k <= q -> sql_term true q k v next = sql_term false q k v next.
Proof. intros H. unfold sql_term. cbn [andb]. destruct (Rlt_dec q k); [lra|]. reflexivity. Qed.
Lemma sql_is_interp q ks : increasing ks -> ~ interior q ks -> (forall k v, ks = [(k, v)] -> q <> k) -> sql_sum true q ks = interp q ks.
Proof.
  intros HS HI H1. destruct ks as [|[k v] ks]; [reflexivity|]. destruct (Rlt_dec k q) as [L|N].
  - rewrite <- (sum_off q ((k, v) :: ks) HS k v ks eq_refl L HI). cbn [sql_sum]. f_equal. apply first_same. lra.
  - inversion HS as [|? ? HS' HF]; subst. cbn [sql_sum].
    assert (Z : q < k \/ q = k) by lra. destruct Z as [Z|Z].
    + rewrite sum_above by (eapply Forall_impl; [|exact HF]; cbn; intros; lra).
      unfold sql_term. cbn [andb]. destruct (Rlt_dec q k); [|lra]. cbn [orb]. cbn [interp]. destruct ks as [|[k' v'] ks]; [lra|]. destruct (Rle_dec q k); lra.
    + subst q. destruct ks as [|[k' v'] ks]; [now destruct (H1 k v eq_refl)|]. cbn [hd_error]. inversion HF as [|? ? H01 HF']; subst. cbn in H01.
      rewrite term_at by assumption. rewrite sum_above by exact HF. cbn [interp]. destruct (Rle_dec k k); lra.
Qed.
(** at an interior knot the value is counted twice *)
Lemma sql_interior a k v b : increasing (a ++ (k, v) :: b) -> a <> [] -> b <> [] -> forall first, sql_sum first k (a ++ (k, v) :: b) = 2 * v.
Proof.
  intros HS Ha Hb. induction a as [|[k0 v0] a IH]; intros first; [congruence|]. cbn [app sql_sum]. inversion HS as [|? ? HS' HF]; subst.
  destruct a as [|[k1 v1] a].
  - cbn [app hd_error sql_sum]. inversion HF as [|? ? H01 _]; subst. cbn in H01. rewrite term_right by lra.
    destruct b as [|[k' v'] b]; [congruence|]. cbn [hd_error]. inversion HS' as [|? ? HS'' HF'']; subst. inversion HF'' as [|? ? H12 _]; subst. cbn in H12.
    rewrite term_at by assumption. rewrite sum_above by exact HF''. field. lra.
  - cbn [app hd_error]. inversion HF as [|? ? H01 _]; subst. cbn in H01.
    assert (H1k : k1 < k).
    { cbn [app] in HS'. inversion HS' as [|? ? _ HF1]; subst. rewrite Forall_forall in HF1. apply (HF1 (k, v)). apply in_or_app. right. now left. }
    rewrite term_above by assumption. change ((k1, v1) :: a ++ (k, v) :: b) with (((k1, v1) :: a) ++ (k, v) :: b).
    rewrite IH by (auto; discriminate). lra.
Qed.
Lemma interp_at a k v b : increasing (a ++ (k, v) :: b) -> interp k (a ++ (k, v) :: b) = v.
Proof.
  induction a as [|[k0 v0] a IH]; intros HS; cbn [app].
  - cbn [interp]. destruct b as [|[k' v'] b]; [reflexivity|]. destruct (Rle_dec k k); lra.
  - inversion HS as [|? ? HS' HF]; subst. cbn [interp]. assert (E : exists k1 v1 l, a ++ (k, v) :: b = (k1, v1) :: l /\ k1 <= k).
    { destruct a as [|[k1 v1] a]; cbn [app]; do 3 eexists; split; try reflexivity; [lra|].
      cbn [app] in HS'. inversion HS' as [|? ? _ HF1]; subst. rewrite Forall_forall in HF1. left. apply (HF1 (k, v)). apply in_or_app. right. now left. }
    destruct E as (k1 & v1 & l & E & Hk1). rewrite E. assert (k0 < k1) by (rewrite E in HF; inversion HF; subst; assumption).
    destruct (Rle_dec k k0); [lra|]. destruct (Rlt_dec k k1); [lra|]. rewrite <- E. now apply IH.
Qed.
Lemma rows_same rows : Forall (fun r => snd r <> NaN) rows -> pandas_rows rows = sql_rows rows.
Proof. induction 1 as [|[v w] rows H H' IH]; [reflexivity|]. cbn. cbn in H. destruct v, w; congruence. Qed.
Lemma interior_iff q ks : interior q ks <-> exists a v b, ks = a ++ (q, v) :: b /\ a <> [] /\ b <> [].
Proof.
  split.
  - induction ks as [|p ks IH]; cbn; [tauto|]. destruct ks as [|[k v] [|p' ks]]; try tauto. intros [->|H].
    + exists [p], v, (p' :: ks). repeat split; discriminate.
    + destruct (IH H) as (a & v' & b & E & Ha & Hb). exists (p :: a), v', b. rewrite E. repeat split; auto. discriminate.
  - intros (a & v & b & -> & Ha & Hb). induction a as [|p a IH]; [congruence|]. cbn [app interior]. destruct a as [|[k1 v1] a]; cbn [app].
    + destruct b; [congruence|]. auto.
    + destruct (a ++ (q, v) :: b) eqn:E; [destruct a; discriminate|]. right. cbn [app] in IH. rewrite E in IH. apply IH. discriminate.
Qed.
Lemma interp_low q k v ks : increasing ((k, v) :: ks) -> q <= k -> interp q ((k, v) :: ks) = v.
Proof. intros HS H. cbn. destruct ks as [|[k' v'] ks]; [reflexivity|]. destruct (Rle_dec q k); [reflexivity|lra]. Qed.
Lemma interp_high q a k v : increasing (a ++ [(k, v)]) -> k <= q -> interp q (a ++ [(k, v)]) = v.
Proof.
  induction a as [|[k0 v0] a IH]; intros HS H; cbn [app]; [reflexivity|]. inversion HS as [|? ? HS' HF]; subst. cbn [interp].
  assert (E : exists k1 v1 l, a ++ [(k, v)] = (k1, v1) :: l /\ k1 <= k).
  { destruct a as [|[k1 v1] a]; cbn [app]; do 3 eexists; split; try reflexivity; [lra|].
    cbn [app] in HS'. inversion HS' as [|? ? _ HF1]; subst. rewrite Forall_forall in HF1. left. apply (HF1 (k, v)). apply in_or_app. right. now left. }
  destruct E as (k1 & v1 & l & E & Hk1). rewrite E. assert (k0 < k1) by (rewrite E in HF; inversion HF; subst; assumption).
  destruct (Rle_dec q k0); [lra|]. destruct (Rlt_dec q k1); [lra|]. rewrite <- E. now apply IH.
Qed.
Lemma interp_between q a k v k' v' b : increasing (a ++ (k, v) :: (k', v') :: b) -> k <= q <= k' ->
  interp q (a ++ (k, v) :: (k', v') :: b) = v + (v' - v) * (q - k) / (k' - k).
Proof.
  induction a as [|[k0 v0] a IH]; intros HS H; cbn [app].
  - inversion HS as [|? ? HS' HF]; subst. inversion HF as [|? ? H01 _]; subst. cbn in H01. cbn [interp].
    destruct (Rle_dec q k). { assert (q = k) by lra. subst. field. lra. } destruct (Rlt_dec q k'); [field; lra|].
    assert (q = k') by lra. subst. destruct b as [|[k2 v2] b]; [field; lra|]. destruct (Rle_dec k' k'); [field; lra|lra].
  - inversion HS as [|? ? HS' HF]; subst. cbn [interp].
    assert (E : exists k1 v1 l, a ++ (k, v) :: (k', v') :: b = (k1, v1) :: l /\ k1 <= k).
    { destruct a as [|[k1 v1] a]; cbn [app]; do 3 eexists; split; try reflexivity; [lra|].
      cbn [app] in HS'. inversion HS' as [|? ? _ HF1]; subst. rewrite Forall_forall in HF1. left. apply (HF1 (k, v)). apply in_or_app. right. now left. }
    destruct E as (k1 & v1 & l & E & Hk1). rewrite E. assert (k0 < k1) by (rewrite E in HF; inversion HF; subst; assumption).
    destruct (Rle_dec q k0); [lra|]. destruct (Rlt_dec q k1); [lra|]. rewrite <- E. now apply IH.
Qed.
Lemma no_value u (pts : list (R * R)) : Forall (fun p => u < fst p) pts -> filter (fun r => if Req_EM_T (fst r) u then true else false) pts = [].
Proof. induction 1 as [|[v w] pts H H' IH]; [reflexivity|]. cbn in *. destruct (Req_EM_T v u); [lra|exact IH]. Qed.
(** the total weight of a value *)
Definition weight_of (v : R) (rows : list (R * R)) : R := Rsum (List.map snd (filter (fun r => if Req_EM_T (fst r) v then true else false) rows)).
Lemma add_weight_spec v w pts : increasing pts -> forall v0 w0, In (v0, w0) (add_weight v w pts) <->
  if Req_EM_T v0 v then w0 = w + weight_of v pts else In (v0, w0) pts.
Proof.
  intros HS. induction pts as [|[v' w'] pts IH]; intros v0 w0.
  - cbn. unfold weight_of. cbn. destruct (Req_EM_T v0 v) as [->|N]; split.
    + intros [H|[]]. injection H as ->. lra.
    + intros ->. left. f_equal. lra.
    + intros [H|[]]. injection H as -> ->. congruence.
    + intros [].
  - inversion HS as [|? ? HS' HF]; subst. specialize (IH HS'). cbn [add_weight].
    assert (NW : forall u, u <= v' -> weight_of u pts = 0).
    { intros u Hu. unfold weight_of. rewrite no_value; [reflexivity|]. eapply Forall_impl; [|exact HF]. cbn. intros; lra. }
    assert (W : forall u, weight_of u ((v', w') :: pts) = (if Req_EM_T v' u then w' else 0) + weight_of u pts).
    { intros u. unfold weight_of. cbn [filter fst]. destruct (Req_EM_T v' u); cbn [List.map snd Rsum]; lra. }
    destruct (Rlt_dec v v') as [L|L].
    + rewrite W, NW by lra. destruct (Req_EM_T v' v); [lra|]. cbn [In]. destruct (Req_EM_T v0 v) as [->|N]; split.
      * intros [H|[H|H]]; [injection H as ->; lra|injection H as -> ->; lra|].
        rewrite Forall_forall in HF. specialize (HF _ H). cbn in HF. lra.
      * intros ->. left. f_equal. lra.
      * intros [H|H]; [injection H as -> ->; congruence|exact H].
      * auto.
    + destruct (Req_EM_T v v') as [<-|N'].
      * rewrite W, NW by lra. destruct (Req_EM_T v v); [|congruence]. cbn [In]. destruct (Req_EM_T v0 v) as [->|N]; split.
        -- intros [H|H]; [injection H as <-; lra|]. rewrite Forall_forall in HF. specialize (HF _ H). cbn in HF. lra.
        -- intros ->. left. f_equal. lra.
        -- intros [H|H]; [injection H as H1 H2; congruence|auto].
        -- intros [H|H]; [injection H as -> ->; congruence|auto].
      * rewrite W. destruct (Req_EM_T v' v); [congruence|]. cbn [In]. rewrite IH. destruct (Req_EM_T v0 v) as [->|N]; split.
        -- intros [H|H]; [injection H as -> ->; congruence|lra].
        -- intros H. right. lra.
        -- auto.
        -- auto.
Qed.
Lemma aggregate_spec rows v w : In (v, w) (aggregate rows) <-> In v (List.map fst rows) /\ w = weight_of v rows.
Proof.
  revert v w. induction rows as [|[v' w'] rows IH]; intros v w; [cbn; tauto|]. cbn [aggregate fold_right fst snd List.map In].
  change (fold_right (fun r => add_weight (fst r) (snd r)) [] rows) with (aggregate rows).
  rewrite add_weight_spec by apply aggregate_sorted.
  assert (W : weight_of v ((v', w') :: rows) = (if Req_EM_T v' v then w' else 0) + weight_of v rows).
  { unfold weight_of. cbn [filter fst]. destruct (Req_EM_T v' v); cbn [List.map snd Rsum]; lra. }
  rewrite W. destruct (Req_EM_T v v') as [->|N].
  - assert (WA : weight_of v' (aggregate rows) = weight_of v' rows).
    { pose proof (aggregate_sorted rows) as HS. destruct (in_dec Req_EM_T v' (List.map fst rows)) as [I|NI].
      - pose proof (proj2 (IH v' (weight_of v' rows)) (conj I eq_refl)) as H. revert H. generalize (weight_of v' rows). intros u H. clear -HS H.
        induction HS as [|[a b] l HS' IH' HF]; [destruct H|]. unfold weight_of. cbn [filter fst]. destruct H as [H|H].
        + injection H as -> ->. destruct (Req_EM_T v' v'); [|congruence]. rewrite no_value by exact HF. cbn. lra.
        + rewrite Forall_forall in HF. pose proof (HF _ H) as L. cbn in L. destruct (Req_EM_T a v'); [lra|]. apply IH'. exact H.
      - transitivity 0.
        + unfold weight_of. assert (E : filter (fun r => if Req_EM_T (fst r) v' then true else false) (aggregate rows) = []); [|now rewrite E].
          destruct (filter _ _) as [|[a b] l] eqn:E; [reflexivity|]. assert (H : In (a, b) (filter (fun r => if Req_EM_T (fst r) v' then true else false) (aggregate rows))) by (rewrite E; now left).
          apply filter_In in H. cbn in H. destruct H as [H1 H2]. destruct (Req_EM_T a v') as [->|]; [|discriminate]. apply IH in H1. tauto.
        + unfold weight_of. assert (E : filter (fun r => if Req_EM_T (fst r) v' then true else false) rows = []); [|now rewrite E].
          clear -NI. induction rows as [|[a b] l IH]; [reflexivity|]. cbn in *. destruct (Req_EM_T a v'); [tauto|]. apply IH. tauto. }
    rewrite WA. destruct (Req_EM_T v' v'); [|congruence]. split; [intros ->; auto|intros [_ ->]; auto].
  - rewrite IH. destruct (Req_EM_T v' v); [congruence|]. split; [intros [H ->]; split; [auto|lra]|intros [[H|H] ->]; [congruence|split; [auto|lra]]].
Qed.

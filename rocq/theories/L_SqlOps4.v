(** CumulativeDistribution: both orders are the same. *)
From Coq Require Import Reals List Bool String Arith Permutation Sorted Lia Lra.
From Verif Require Import M_Num M_Frame L_Frame M_Ops S_Ops L_OpsA L_OpsB L_OpsC M_SqlGlobal L_SqlGlobal M_SqlLeaf S_SqlLeaf L_SqlLeaf L_SqlLeaf2 M_SqlOps S_SqlOps L_Nth L_SqlOps L_SqlOps2 L_SqlOps3.
Import ListNotations.
Open Scope string_scope.
Open Scope list_scope.

Lemma ssorted_all {A} (Q : A -> A -> Prop) l : (forall a b, In a l -> In b l -> Q a b) -> StronglySorted Q l.
Proof.
  induction l as [|a l IH]; intros H; [constructor|]. constructor.
  - apply IH. intros x y Hx Hy. apply H; now right.
  - apply Forall_forall. intros x Hx. apply H; [now left|now right].
Qed.
Lemma ssorted_flat_map {A B} (Rs : A -> A -> Prop) (Q : B -> B -> Prop) (f : A -> list B) l :
  (forall a, In a l -> forall x y, In x (f a) -> In y (f a) -> Q x y) -> (forall a a' x y, In a l -> In a' l -> Rs a a' -> In x (f a) -> In y (f a') -> Q x y) ->
  StronglySorted Rs l -> StronglySorted Q (flat_map f l).
Proof.
  intros H1 H2 Hs. induction Hs as [|a l Hs IH Hf]; [constructor|]. cbn [flat_map]. apply ssorted_app. split; [|split].
  - apply ssorted_all. apply H1. now left.
  - apply IH; [intros b Hb; apply H1; now right|]. intros b b' x y Hb Hb'. apply H2; now right.
  - intros x y Hx Hy. apply in_flat_map in Hy as (b & Hb & Hy). rewrite Forall_forall in Hf.
    apply (H2 a b); auto; [now left|now right].
Qed.
Lemma index_sorted o : NoDup o -> StronglySorted (fun s s' => index_in s o <= index_in s' o)%nat o.
Proof.
  induction 1 as [|x o Hx Ho IH]; [constructor|]. constructor.
  - apply (ssorted_impl_in (fun s s' => index_in s o <= index_in s' o)%nat); [|exact IH]. intros a b Ha Hb H. cbn [index_in].
    assert (forall s, In s o -> String.eqb x s = false) as Hn by (intros s Hs; apply String.eqb_neq; congruence). rewrite !Hn by assumption. lia.
  - apply Forall_forall. intros s Hs. cbn [index_in]. rewrite String.eqb_refl. lia.
Qed.
Lemma index_in_inj o s s' : In s o -> index_in s o = index_in s' o -> s = s'.
Proof.
  induction o as [|x o IH]; [intros []|]. cbn [index_in]. intros Hs H.
  destruct (String.eqb x s) eqn:E, (String.eqb x s') eqn:E'; try discriminate.
  - apply String.eqb_eq in E, E'. congruence.
  - destruct Hs as [->|Hs]; [rewrite String.eqb_refl in E; discriminate|]. apply IH; auto.
Qed.
Lemma key_halves n (a b : list string) : firstn n a = firstn n b -> skipn n a = skipn n b -> a = b.
Proof. intros H1 H2. rewrite <- (firstn_skipn n a), <- (firstn_skipn n b). congruence. Qed.
Lemma NoDup_fst_eq {V} (l : list (list string * V)) a b : NoDup (List.map fst l) -> In a l -> In b l -> fst a = fst b -> a = b.
Proof.
  induction l as [|r l IH]; [intros _ []|]. cbn. intros Hd Ha Hb E. inversion Hd; subst.
  destruct Ha as [->|Ha], Hb as [->|Hb]; auto.
  - exfalso. apply H1. rewrite E. now apply in_map.
  - exfalso. apply H1. rewrite <- E. now apply in_map.
Qed.

Section CumOp.
  Variables (parse : string -> cond) (srt : list okey -> list env -> list env) (t : stable).
  Variable psort : cum_how -> bool -> nat -> rframe -> rframe.

  Lemma fits_dist n how F : cum_fits n how F -> dist_fits n F.
  Proof. intros [H _] k v Hi E. destruct (H k v Hi). contradiction. Qed.
  (** the shares are numbers *)
  Lemma shares_fin n how F d : Forall (fun r => no_inf (snd r)) F -> cum_fits n how F -> In d (distribution n F) ->
    exists v, In (fst d, Fin v) F /\ total n (firstn n (fst d)) F <> 0%R /\ snd d = Fin (v / total n (firstn n (fst d)) F).
  Proof.
    intros HF [H _] Hd. unfold distribution in Hd. apply in_map_iff in Hd as [[k x] [<- Hi]]. cbn [fst snd].
    destruct (H k x Hi) as [Hx Ht]. rewrite Forall_forall in HF. pose proof (HF _ Hi) as Hn. cbn in Hn.
    destruct x as [v| | |]; try (destruct Hn; congruence). exists v. split; [exact Hi|]. split; [exact Ht|].
    pose proof (level_total n F (k, Fin v) Hi) as E. cbn [fst] in E. rewrite E. rewrite xsum_finite.
    2:{ apply vals_no_inf. now apply Forall_forall. }
    fold (nums n (firstn n k) F). fold (total n (firstn n k) F). cbn. unfold Reqb. destruct (Req_EM_T _ 0); [contradiction|reflexivity].
  Qed.
  Lemma cum_op_step by_ over how asc v c (F : rframe) :
    db_sorts srt -> pandas_sorts psort -> inv parse srt t c (by_ ++ over) v F -> cum_fits (List.length by_) how F ->
    (match how with CumOrder _ => List.length over = 1%nat | _ => True end) ->
    ~ In (String.append "Distribution of " v) (by_ ++ over) -> ~ In (String.append "Cumulative " (String.append "Distribution of " v)) (by_ ++ over) ->
    inv parse srt t (cumulative_sql by_ (by_ ++ over) over how asc (distribution_sql "Distribution of " by_ over c)) (by_ ++ over)
        (String.append "Cumulative " (String.append "Distribution of " v))
        (cumulative_distribution (List.length by_) (match how with CumOrder o => ByOrder (if asc then o else rev o) | _ => BySort (psort how asc (List.length by_)) end) F).
  Proof.
    intros Hsrt Hps Hinv Hfit Hover Hv1 Hv2. set (n := List.length by_) in *.
    pose proof Hinv as (_ & _ & _ & HF & Hd & Hl).
    pose proof (dist_step parse srt t "Distribution of " by_ over v c F Hinv (fits_dist _ _ _ Hfit) Hv1) as HD. fold n in HD.
    assert (forall d, In d (distribution n F) -> exists x, snd d = Fin x) as Hfin.
    { intros d Hd'. destruct (shares_fin n how F d HF Hfit Hd') as (x & _ & _ & E). eauto. }
    assert (NoDup (List.map fst (distribution n F))) as HdD by (rewrite distribution_index; exact Hd).
    assert (forall a b, In a (distribution n F) -> In b (distribution n F) -> firstn n (fst a) = firstn n (fst b) ->
                        fle how asc n a b -> fle how asc n b a -> a = b) as Hties.
    { intros a b Ha Hb Eg H1 H2. apply (NoDup_fst_eq _ a b HdD Ha Hb).
      destruct (shares_fin n how F a HF Hfit Ha) as (x & Hx & Htx & Ex). destruct (shares_fin n how F b HF Hfit Hb) as (y & Hy & Hty & Ey).
      unfold fle in *. destruct how as [|o|]; cbn [fcmp frame_cmp] in H1, H2.
      - apply (key_halves n); [exact Eg|]. destruct asc; apply key_le_anti; assumption.
      - destruct Hfit as [_ [_ Hlab]]. destruct (Hlab _ _ Hx) as (l & Hlo & El). destruct (Hlab _ _ Hy) as (l' & Hlo' & El').
        rewrite El, El' in H1, H2. cbn [case_idx] in H1, H2. apply (key_halves n); [exact Eg|]. rewrite El, El'. f_equal. apply (index_in_inj o); [exact Hlo|].
        destruct asc; apply Nat.compare_le_iff in H1; apply Nat.compare_le_iff in H2; lia.
      - rewrite Ex, Ey in H1, H2. destruct Hfit as [_ Hlab]. rewrite <- Eg in *.
        assert (x = y) as ->; [|apply (Hlab _ _ (Fin y)); auto].
        assert (x / total n (firstn n (fst a)) F = y / total n (firstn n (fst a)) F)%R as E by (destruct asc; apply Rcmp_le in H1; apply Rcmp_le in H2; lra).
        apply (f_equal (fun z => z * total n (firstn n (fst a)) F)%R) in E. unfold Rdiv in E. rewrite !Rmult_assoc, Rinv_l, !Rmult_1_r in E by exact Htx. exact E. }
    unfold cumulative_distribution.
    destruct how as [|o|].
    - assert (CumOver = CumValues -> forall r, In r (distribution n F) -> exists x, snd r = Fin x) as H0 by discriminate.
      destruct (Hps CumOver asc n _ H0) as [HP HS]. apply cum_step with (D := distribution n F); auto.
    - destruct Hfit as [Hz [Ho Hlab]]. apply cum_step with (D := distribution n F); auto.
      + assert (filter (fun r => negb (is_nan (snd r))) (distribution n F) = distribution n F) as E.
        { apply filter_all. intros r Hr. destruct (Hfin r Hr) as [x ->]. reflexivity. }
        rewrite <- E at 2. apply reindex_perm.
        * destruct asc; [exact Ho|now apply NoDup_rev].
        * intros r Hr _. unfold distribution in Hr. apply in_map_iff in Hr as [[k x] [<- Hi]]. cbn [fst]. destruct (Hlab k x Hi) as (l & Hlo & El).
          exists l. rewrite El. split; [|reflexivity]. destruct asc; [exact Hlo|now apply in_rev in Hlo].
      + unfold reindex_order. apply ssorted_filter.
        assert (forall l r, In r (filter (fun r => key_eqb (firstn 1 (skipn n (fst r))) [l]) (distribution n F)) -> case_idx o (skipn n (fst r)) = index_in l o) as Hci.
        { intros l r Hr. apply filter_In in Hr as [Hr Ek]. apply key_eqb_eq in Ek. unfold distribution in Hr. apply in_map_iff in Hr as [[k x] [<- Hi]]. cbn [fst] in *.
          destruct (Hlab k x Hi) as (l' & Hlo & El). rewrite El in *. cbn in Ek. cbn. congruence. }
        destruct asc.
        * apply (ssorted_flat_map (fun s s' => index_in s o <= index_in s' o)%nat); [| |now apply index_sorted].
          -- intros l _ x y Hx Hy. cbv beta iota delta [fle fcmp]. fold n. rewrite (Hci l x Hx), (Hci l y Hy). apply Nat.compare_le_iff. lia.
          -- intros l l' x y _ _ H Hx Hy. cbv beta iota delta [fle fcmp]. fold n. rewrite (Hci l x Hx), (Hci l' y Hy). now apply Nat.compare_le_iff.
        * apply (ssorted_flat_map (fun s s' => index_in s' o <= index_in s o)%nat); [| |apply ssorted_rev with (R := fun s s' => (index_in s o <= index_in s' o)%nat); now apply index_sorted].
          -- intros l _ x y Hx Hy. cbv beta iota delta [fle fcmp]. fold n. rewrite (Hci l x Hx), (Hci l y Hy). apply Nat.compare_le_iff. lia.
          -- intros l l' x y _ _ H Hx Hy. cbv beta iota delta [fle fcmp]. fold n. rewrite (Hci l x Hx), (Hci l' y Hy). now apply Nat.compare_le_iff.
    - assert (CumValues = CumValues -> forall r, In r (distribution n F) -> exists x, snd r = Fin x) as H0 by auto.
      destruct (Hps CumValues asc n _ H0) as [HP HS]. apply cum_step with (D := distribution n F); auto.
  Qed.
End CumOp.

(** The operation over the list and over one metric (C74). *)
From Coq Require Import Reals List Bool String Arith Permutation Sorted Lia Lra.
From Verif Require Import M_Num M_Frame S_Ops M_Ops L_Frame L_OpsA L_OpsB M_SqlGlobal M_SqlLeaf M_SqlOps M_SqlList M_OpList S_OpList L_OpList1 L_OpList2 L_OpList3 L_OpList4 L_OpList5.
Import ListNotations.
Open Scope list_scope.

Lemma pfilters_app parse a b df : filter (pfilters parse (a ++ b)) df = filter (pfilters parse b) (filter (pfilters parse a) df).
Proof.
  assert (forall r, pfilters parse (a ++ b) r = pfilters parse a r && pfilters parse b r) as H by (intros r; apply forallb_app).
  induction df as [|r df IH]; cbn; auto. rewrite H. destruct (pfilters parse a r) eqn:E1; cbn; [destruct (pfilters parse b r); now rewrite IH|exact IH].
Qed.
Definition capply psort (o : lop) (n : nat) (fr : rframe) : option rframe :=
  match o with
  | LDist _ => Some (distribution n fr)
  | LCum _ how asc => Some (cumulative_distribution n (match how with CumOrder l => ByOrder (if asc then l else rev l) | _ => BySort (psort how asc n) end) fr)
  | LChange p cond base incl => (if p then percent_change else absolute_change) n (List.length cond) base incl fr
  | LDiv d _ => Some (match d with HHI => hhi n fr | Entropy => entropy n fr | TopK k => top_k k n fr | Nxx s => nxx s n fr end)
  end.
Lemma results_nth F ms j m fr : nth_error (flat_map (fun m : otree => match F m with Some fr => [(m, fr)] | None => [] end) ms) j = Some (m, fr : rframe) -> F m = Some fr /\ In m ms.
Proof.
  intros H. apply nth_error_In in H. apply in_flat_map in H as (m' & Hm & H). destruct (F m') as [g|] eqn:E; [|destruct H]. destruct H as [H|[]]. injection H as -> ->. auto.
Qed.

Section Main.
  Variable parse : string -> cond.
  Variable psort : cum_how -> bool -> nat -> rframe -> rframe.
  Variable lsort : bool -> nat -> wframe -> wframe.
  Hypothesis Hs : frames_sort psort lsort.
  Variables (o : lop) (w : list string) (ms : list otree) (lw split_by : list string) (df : table).
  Hypothesis Hsup : lop_supported o ms.
  Notation child := (child_of parse psort o w lw split_by df).
  Notation res := (list_results parse psort ms (split_by ++ lop_over o) (filter (pfilters parse lw) (filter (pfilters parse w) df))).
  Notation n := (List.length split_by).
  Notation c := (List.length res).
  Notation W := (concat_frames (List.map snd res)).

  Lemma alone_eq m : op_compute parse psort (alone o w lw m) split_by df = match child m with Some fr => capply psort o n fr | None => None end.
  Proof. clear Hsup. unfold child_of. destruct o as [over|over how asc|p cond base incl|d over]; cbn [alone op_compute lop_over capply]; rewrite pfilters_app; destruct (op_compute _ _ _ _ _); cbn; auto; try (destruct how); try (destruct d); reflexivity. Qed.
  Lemma child_indexed m fr : In m ms -> child m = Some fr -> indexed (n + List.length (lop_over o) + List.length (extra_idx m)) fr.
  Proof. intros Hm H. rewrite <- app_length. exact (op_indexed parse psort lsort Hs m _ _ fr (proj1 Hsup m Hm) H). Qed.
  Lemma res_nth j m fr : nth_error res j = Some (m, fr) -> child m = Some fr /\ In m ms.
  Proof. apply results_nth. Qed.
  Lemma res_in m fr : In m ms -> child m = Some fr -> exists j, nth_error res j = Some (m, fr).
  Proof. intros Hm H. apply In_nth_error. apply in_flat_map. exists m. split; auto. unfold child_of in H. rewrite H. now left. Qed.
  Lemma W_pads j m fr : nth_error res j = Some (m, fr) -> (j < c)%nat /\ pads (wcol j W) fr /\ NoDup (List.map fst fr).
  Proof.
    intros H. destruct (res_nth j m fr H) as [Hc Hm]. assert (NoDup (List.map fst fr)) as Hd by now apply (child_indexed m fr). split; [apply nth_error_Some; intros Hx; pose proof (eq_trans (eq_sym Hx) H) as Hy; discriminate|]. split; auto.
    apply concat_pads; auto. now apply (map_nth_error snd j res) in H.
  Qed.
  Lemma W_keys k : In k (List.map fst W) -> exists m fr, In m ms /\ child m = Some fr /\ In k (List.map fst fr).
  Proof.
    intros H. apply concat_keys in H as (fr & Hf & Hk). apply in_map_iff in Hf as ([m fr'] & E & Hf). cbn in E. subst fr'. apply In_nth_error in Hf as [j Hf]. destruct (res_nth j m fr Hf) as [H1 H2]. eauto.
  Qed.
  Lemma W_length k : In k (List.map fst W) -> (n + List.length (lop_over o) <= List.length k)%nat.
  Proof. intros H. apply W_keys in H as (m & fr & Hm & Hc & Hk). destruct (child_indexed m fr Hm Hc) as [_ Hl]. rewrite (Hl k Hk). lia. Qed.

  Lemma percent_nan b : xmul (xsub (xdiv NaN b) (Fin 1)) (Fin 100) = NaN. Proof. now destruct b. Qed.
  Lemma percent_nan' v : xmul (xsub (xdiv v NaN) (Fin 1)) (Fin 100) = NaN. Proof. now destruct v. Qed.
  Lemma sub_nan' v : xsub v NaN = NaN. Proof. now destruct v. Qed.

  (** Rows of the order in the list's frame. *)
  Lemma cells_shares i m fr r : nth_error res i = Some (m, fr) -> In r (wdistribution c n W) -> cell_at i r = lookup (fst r) (shares split_by fr).
  Proof.
    intros H Hr. destruct (W_pads i m fr H) as (Hi & Hp & Hd). pose proof (pads_distribution _ _ n Hp) as Hpd. rewrite <- (wcol_distribution c i n W Hi) in Hpd. unfold shares. rewrite <- (pads_lookup _ _ _ Hpd). symmetry.
    apply lookup_In; [apply Hpd|]. unfold wcol. apply in_map_iff. eauto.
  Qed.
  Lemma order_complete over order asc j m fr : o = LCum over (CumOrder order) asc -> nth_error res j = Some (m, fr) ->
    (complete_rows c j n W (if asc then order else rev order) <-> all_have_shares parse psort o w ms lw split_by df order m).
  Proof.
    intros Eo Hj. destruct Hsup as [_ Hsu]. rewrite Eo in Hsu. destruct Hsu as (Hov & Hno & Hex). destruct (W_pads j m fr Hj) as (Hjc & Hp & Hd).
    assert (forall k, In k (List.map fst W) -> List.length k = S n) as HlenW.
    { intros k Hk. apply W_keys in Hk as (m' & fr' & Hm' & Hc' & Hk'). destruct (child_indexed m' fr' Hm' Hc') as [_ Hl]. rewrite (Hl k Hk'), Eo. cbn [lop_over]. rewrite Hov, (Hex m' Hm'). cbn. lia. }
    assert (forall x, In x (if asc then order else rev order) <-> In x order) as Hino by (intros x; destruct asc; [reflexivity|now rewrite <- in_rev]).
    pose proof (reindex_rows c j n W Hjc (if asc then order else rev order) HlenW) as Hrows.
    unfold complete_rows, all_have_shares. split.
    - intros H fr0 k l Hc0 Hl Ek Hv m' fr' Hm' Hc'. destruct (res_nth j m fr Hj) as [Hcm _]. assert (fr0 = fr) as -> by congruence.
      destruct (res_in m' fr' Hm' Hc') as [i Hi]. destruct (W_pads i m' fr' Hi) as (Hic & _ & _).
      assert (In k (List.map fst (wdistribution c n W))) as Hk.
      { destruct (in_dec (list_eq_dec string_dec) k (List.map fst fr)) as [Hk|Hk].
        - rewrite (D_keys c j n W Hjc), <- (wcol_keys j). now apply (pads_keys _ _ _ Hp).
        - destruct Hv. apply lookup_None. unfold shares, distribution. rewrite map_map. exact Hk. }
      apply in_map_iff in Hk as (r & Er & Hr). assert (In r (wreindex n (if asc then order else rev order) (wdistribution c n W))) as Hrr.
      { apply Hrows. split; auto. exists l. rewrite Er. split; auto. now apply Hino. }
      specialize (H r Hrr). rewrite (cells_shares j m fr r Hj Hr), Er in H. assert (is_nan (lookup k (shares split_by fr)) = false) as Hn by (destruct (lookup k (shares split_by fr)); auto; congruence).
      specialize (H Hn i Hic). rewrite (cells_shares i m' fr' r Hi Hr), Er in H. intros E. rewrite E in H. discriminate.
    - intros H r Hr Hv i Hi. apply Hrows in Hr as [Hr (x & Hx & Ex)].
      destruct (nth_error res i) as [[m' fr']|] eqn:Ei; [|apply nth_error_None in Ei; lia].
      rewrite (cells_shares j m fr r Hj Hr) in Hv. rewrite (cells_shares i m' fr' r Ei Hr). destruct (res_nth j m fr Hj) as [Hcm _]. destruct (res_nth i m' fr' Ei) as [Hcm' Hm'].
      assert (lookup (fst r) (shares split_by fr') <> NaN) as Hx'.
      { apply (H fr (fst r) x Hcm (proj1 (Hino x) Hx) Ex) with (m' := m'); auto. intros E. rewrite E in Hv. discriminate. }
      destruct (lookup (fst r) (shares split_by fr')); auto. congruence.
  Qed.
  Lemma lengths_order over order asc : o = LCum over (CumOrder order) asc -> forall k, In k (List.map fst W) -> List.length k = S n.
  Proof.
    intros Eo k Hk. destruct Hsup as [_ Hsu]. rewrite Eo in Hsu. destruct Hsu as (Hov & Hno & Hex). apply W_keys in Hk as (m' & fr' & Hm' & Hc' & Hk'). destruct (child_indexed m' fr' Hm' Hc') as [_ Hl]. rewrite (Hl k Hk'), Eo. cbn [lop_over]. rewrite Hov, (Hex m' Hm'). cbn. lia.
  Qed.

  Lemma main j m fr r : nth_error res j = Some (m, fr) -> capply psort o n fr = Some r -> lop_fits parse psort o w ms lw split_by df m ->
    exists rows, wapply lsort (psort CumValues) o c n W = Some rows /\ column_is j rows r (no_data o).
  Proof.
    intros Hj Hr Hf. destruct (W_pads j m fr Hj) as (Hjc & Hp & Hd). destruct (res_nth j m fr Hj) as [Hcm Hm].
    destruct o as [over|over how asc|p cond base incl|d over] eqn:Eo; cbn [capply wapply no_data] in *.
    - injection Hr as <-. eexists. split; [reflexivity|]. now apply op_dist.
    - injection Hr as <-. eexists. split; [reflexivity|]. destruct how as [|order|].
      + now apply op_cum_over.
      + cbn [lop_fits] in Hf. rewrite <- Eo in *. apply (op_cum_order c j n W fr Hjc Hp (if asc then order else rev order)); auto.
        * destruct Hsup as [_ Hsu]. rewrite Eo in Hsu. destruct asc; [apply Hsu|apply NoDup_rev, Hsu].
        * now apply (lengths_order over order asc).
        * apply (order_complete over order asc j m fr); auto.
      + apply op_cum_values; auto. intros k k' v H1 H2 H3 H4. now apply (Hf fr k k' v).
    - assert (forall k, In k (List.map fst W) -> (n + List.length cond <= List.length k)%nat) as Hl by (intros k Hk; rewrite <- Eo in *; apply W_length in Hk; rewrite Eo in Hk; exact Hk).
      rewrite <- Eo in Hjc, Hp |- *. clear Eo. destruct p.
      + apply (op_change c j n W fr Hjc Hp (fun v b => xmul (xsub (xdiv v b) (Fin 1)) (Fin 100))); auto using percent_nan.
      + apply (op_change c j n W fr Hjc Hp xsub); auto.
    - injection Hr as <-. eexists. split; [reflexivity|]. destruct d; [now apply op_hhi|now apply op_entropy|now apply op_top_k|now apply op_nxx].
  Qed.
End Main.

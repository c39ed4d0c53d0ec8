(** LOO has one row for every group of every leave-one-out sample, with its sums. *)
From Coq Require Import Reals List Bool String Arith ZArith Permutation Sorted Lia Lra.
From Verif Require Import M_Num M_Frame L_Frame M_Leaf M_Ops S_Ops L_OpsA L_OpsB M_SqlGlobal S_SqlGlobal L_SqlGlobal M_SqlLeaf S_SqlLeaf L_SqlLeaf L_SqlLeaf2 M_SqlOps S_SqlOps L_SqlOps L_SqlOps7 M_SqlJackknife S_SqlJackknife L_SqlJack1 L_SqlJack4 L_SqlJack5 M_SqlJackFast L_SqlSummary L_SqlSummary2 L_SqlLoo1 L_SqlLoo2.
Import ListNotations.
Open Scope string_scope.
Open Scope list_scope.

Ltac mt H L := let H' := fresh in pose proof (proj1 L H) as H'; clear H; rename H' into H.
Section Loo.
  Variables (parse : string -> cond) (pre loo : leaf -> list string -> string) (s e : list string) (unit : string) (t : stable) (lvs : list (leaf * list string)).
  Notation C := (s ++ e). Notation U := ((s ++ e) ++ [unit]). Notation W := ((s ++ [resample_idx]) ++ e).
  Hypothesis Hparse : forall f, ~ In resample_idx (cond_labels (parse f)).
  Hypothesis Hidx : ~ In resample_idx C.
  Hypothesis Hne : t <> [].
  Hypothesis Hlab : forall r c, In r t -> In c U -> slab r c <> None.
  Hypothesis Hkind : forall l fs, In (l, fs) lvs -> sum_or_count_leaf l.
  Hypothesis Hpre : forall l fs l' fs', In (l, fs) lvs -> In (l', fs') lvs -> pre l fs = pre l' fs' -> (l, fs) = (l', fs').
  Hypothesis Hloo : forall l fs l' fs', In (l, fs) lvs -> In (l', fs') lvs -> loo l fs = loo l' fs' -> (l, fs) = (l', fs').
  Hypothesis Hct : forall l fs, In (l, fs) lvs -> pre l fs <> "ct".
  Hypothesis HunitC : ~ In unit C.
  Variable adjust : bool.
  Hypothesis Hfull : adjust = false -> forall k x r l fs, unit_in s unit k x t -> In r t -> srow_key s r = List.map Some k -> In (l, fs) lvs ->
    exists r', In r' t /\ srow_key C r' = srow_key C r /\ slab r' unit = Some x /\ forall c, l = Lf (LSum c) -> sarg parse (AIf fs c) r' <> None.
  Notation D := (preagg parse pre lvs U t).
  Notation u := (unit_slice parse U D).
  Notation total := (total_count parse C u).
  Notation LOO := (loo_table adjust pre loo lvs s C unit u total).
  Notation J := (jk_general s unit t).
  Notation key w := (srow_key (s ++ [unit]) w).
  Notation mtch w tot := (match matching parse pre s e unit t lvs (key w) tot with [] => [null_row] | l => l end).
  Notation oth w tot := (others s e unit t w tot).
  Notation row w tot us := (lrow pre loo s unit lvs adjust (key w) tot us).

  Lemma HlabC r c : In r t -> In c C -> slab r c <> None. Proof. intros Hr Hc. apply Hlab; [exact Hr|]. apply in_or_app. auto. Qed.
  Lemma Hlabs r c : In r t -> In c s -> slab r c <> None. Proof. intros Hr Hc. apply HlabC; [exact Hr|]. apply in_or_app. auto. Qed.
  Lemma Hunit r : In r t -> slab r unit <> None. Proof. intros Hr. apply Hlab; [exact Hr|]. apply in_or_app. right. now left. Qed.
  Lemma Hidxs : ~ In resample_idx s. Proof. intros H. apply Hidx, in_or_app. auto. Qed.
  Lemma Hidxe : ~ In resample_idx e. Proof. intros H. apply Hidx, in_or_app. auto. Qed.
  Lemma ufine : fine U t u. Proof. now apply u_fine. Qed.
  Lemma tfine : fine C t total. Proof. now apply tot_fine. Qed.
  Lemma sagree (a b : srow) : srow_key C a = srow_key C b -> forall c, In c s -> slab a c = slab b c.
  Proof. intros H c Hc. apply (proj1 (key_agree C a b) H). apply in_or_app. auto. Qed.

  Lemma totals_here w : In w u -> exists tot, In tot total /\ forall c, In c s -> slab tot c = slab w c.
  Proof.
    intros Hw. destruct ufine as (_ & _ & U3). destruct (U3 w Hw) as (r & Hr & E). destruct tfine as (_ & T2 & _). destruct (T2 r Hr) as (tot & Ht & Et). exists tot. split; [exact Ht|]. intros c Hc.
    rewrite (sagree tot r Et c Hc). symmetry. apply (proj1 (key_agree U w r) E). apply in_or_app. left. apply in_or_app. auto.
  Qed.
  Lemma match_totals w tot : In w u -> In tot total -> using_match s (slab tot) (sl s unit (key w)) = true <-> forall c, In c s -> slab tot c = slab w c.
  Proof.
    intros Hw Ht. rewrite using_true. split; intros H c Hc.
    - destruct (H c Hc) as [E _]. rewrite sl_key in E; [exact E|]. apply in_or_app. auto.
    - rewrite sl_key by (apply in_or_app; auto). split; [now apply H|]. apply (tot_lab parse pre s e unit t lvs Hne Hlab); [exact Ht|]. apply in_or_app. auto.
  Qed.
  Lemma totals_list w : In w u -> match filter (fun tot => using_match s (slab tot) (sl s unit (key w))) total with [] => [null_row] | l => l end = filter (fun tot => using_match s (slab tot) (sl s unit (key w))) total.
  Proof.
    intros Hw. destruct (filter _ total) as [|g l] eqn:E; [|reflexivity]. exfalso. destruct (totals_here w Hw) as (tot & Ht & Hs). assert (In tot []) as []. rewrite <- E. apply filter_In. split; [exact Ht|]. now apply match_totals.
  Qed.
  Lemma a_in a : In a (nodup skey_dec (List.map (srow_key (s ++ [unit])) u)) <-> exists w, In w u /\ a = key w.
  Proof. rewrite nodup_In, in_map_iff. split; intros (w & H1 & H2); exists w; auto. Qed.
  Lemma LOO_in g : In g LOO <-> exists w tot us, In w u /\ In tot total /\ (forall c, In c s -> slab tot c = slab w c) /\ In us (mtch w tot) /\ oth w tot <> [] /\ g = row w tot us.
  Proof.
    rewrite LOO_eq, in_flat_map. split.
    - intros (a & Ha & H). apply a_in in Ha as (w & Hw & ->). apply in_flat_map in H as (tot & Ht & H). rewrite (totals_list w Hw) in Ht. apply filter_In in Ht as [Ht Hm]. mt Hm (match_totals w tot Hw Ht).
      apply in_flat_map in H as (us & Hus & H). rewrite (cell_rows parse pre loo s e unit t lvs Hne Hlab HunitC adjust w tot Hw Ht Hm us Hus) in H. exists w, tot, us. repeat (split; [assumption|]). destruct (oth w tot); [destruct H|]. destruct H as [<-|[]]. split; [discriminate|reflexivity].
    - intros (w & tot & us & Hw & Ht & Hm & Hus & Ho & ->). exists (key w). split; [apply a_in; eauto|]. apply in_flat_map. exists tot. split; [rewrite (totals_list w Hw); apply filter_In; split; [exact Ht|now apply match_totals]|].
      apply in_flat_map. exists us. split; [exact Hus|]. rewrite (cell_rows parse pre loo s e unit t lvs Hne Hlab HunitC adjust w tot Hw Ht Hm us Hus). destruct (oth w tot); [congruence|now left].
  Qed.
  Lemma row_lab w tot us c : (forall c, In c s -> slab tot c = slab w c) -> In c C -> slab (row w tot us) c = slab tot c.
  Proof. intros Hm Hc. cbn [lrow slab]. destruct (String.eqb_spec c resample_idx) as [->|_]; [contradiction|]. now apply (here_C s e unit HunitC w tot Hm). Qed.
  Lemma row_idx w tot us : slab (row w tot us) resample_idx = slab w unit.
  Proof. cbn [lrow slab]. rewrite String.eqb_refl. apply sl_key. apply in_or_app. right. now left. Qed.
  Lemma W_C c : In c W <-> In c C \/ c = resample_idx.
  Proof. rewrite !in_app_iff. cbn. intuition. Qed.
  Lemma tot_unique a b : In a total -> In b total -> srow_key C a = srow_key C b -> a = b.
  Proof.
    intros H1 H2 E. destruct tfine as (F1 & _). revert F1 H1 H2 E. generalize total. intros l. induction l as [|z l IH]; intros F1 H1 H2 E; [destruct H1|]. cbn [List.map] in F1. inversion F1 as [|? ? N1 N2]; subst.
    destruct H1 as [<-|H1], H2 as [<-|H2]; auto; exfalso; apply N1; [rewrite E|rewrite <- E]; now apply in_map.
  Qed.
  Lemma row_keys w tot us w' tot' us' : In w u -> In w' u -> In tot total -> In tot' total -> (forall c, In c s -> slab tot c = slab w c) -> (forall c, In c s -> slab tot' c = slab w' c) ->
    srow_key W (row w tot us) = srow_key W (row w' tot' us') -> key w = key w' /\ tot = tot'.
  Proof.
    intros Hw Hw' Ht Ht' Hm Hm' E. rewrite key_agree in E.
    assert (tot = tot') as <-.
    { apply tot_unique; auto. apply key_agree. intros c Hc. rewrite <- (row_lab w tot us c Hm Hc), <- (row_lab w' tot' us' c Hm' Hc). apply E. apply W_C. auto. }
    split; [|reflexivity]. apply key_agree. intros c Hc. apply in_app_or in Hc as [Hc|[<-|[]]].
    - rewrite <- (Hm c Hc). now apply Hm'.
    - rewrite <- (row_idx w tot us), <- (row_idx w' tot us'). apply E. apply W_C. auto.
  Qed.
  Lemma LOO_NoDup : NoDup (List.map (srow_key W) LOO).
  Proof.
    rewrite LOO_eq. apply NoDup_flat; [apply NoDup_nodup| |].
    - intros a Ha. apply a_in in Ha as (w & Hw & ->). rewrite (totals_list w Hw). apply NoDup_flat.
      + apply NoDup_filter. destruct tfine as (F1 & _). now apply NoDup_map_inv in F1.
      + intros tot Ht. apply filter_In in Ht as [Ht Hm]. mt Hm (match_totals w tot Hw Ht).
        destruct (matching_cases parse pre s e unit t lvs Hne Hlab HunitC w tot Hw Ht Hm) as [(us & Em & _)|[Em _]]; rewrite Em; cbn [flat_map]; rewrite app_nil_r.
        * rewrite (cell_rows parse pre loo s e unit t lvs Hne Hlab HunitC adjust w tot Hw Ht Hm us) by (rewrite Em; now left). destruct (oth w tot); repeat constructor; intros [].
        * rewrite (cell_rows parse pre loo s e unit t lvs Hne Hlab HunitC adjust w tot Hw Ht Hm null_row) by (rewrite Em; now left). destruct (oth w tot); repeat constructor; intros [].
      + intros tot tot' g h Ht Ht' Hg Hh E. apply filter_In in Ht as [Ht Hm]. mt Hm (match_totals w tot Hw Ht). apply filter_In in Ht' as [Ht' Hm']. mt Hm' (match_totals w tot' Hw Ht').
        apply in_flat_map in Hg as (us & Hus & Hg). rewrite (cell_rows parse pre loo s e unit t lvs Hne Hlab HunitC adjust w tot Hw Ht Hm us Hus) in Hg. destruct (oth w tot); [destruct Hg|]. destruct Hg as [<-|[]].
        apply in_flat_map in Hh as (us' & Hus' & Hh). rewrite (cell_rows parse pre loo s e unit t lvs Hne Hlab HunitC adjust w tot' Hw Ht' Hm' us' Hus') in Hh. destruct (oth w tot'); [destruct Hh|]. destruct Hh as [<-|[]].
        now apply (row_keys w tot us w tot' us').
    - intros a b g h Ha Hb Hg Hh E. apply a_in in Ha as (w & Hw & ->). apply a_in in Hb as (w' & Hw' & ->).
      apply in_flat_map in Hg as (tot & Ht & Hg). rewrite (totals_list w Hw) in Ht. apply filter_In in Ht as [Ht Hm]. mt Hm (match_totals w tot Hw Ht). apply in_flat_map in Hg as (us & Hus & Hg). rewrite (cell_rows parse pre loo s e unit t lvs Hne Hlab HunitC adjust w tot Hw Ht Hm us Hus) in Hg. destruct (oth w tot); [destruct Hg|]. destruct Hg as [<-|[]].
      apply in_flat_map in Hh as (tot' & Ht' & Hh). rewrite (totals_list w' Hw') in Ht'. apply filter_In in Ht' as [Ht' Hm']. mt Hm' (match_totals w' tot' Hw' Ht'). apply in_flat_map in Hh as (us' & Hus' & Hh). rewrite (cell_rows parse pre loo s e unit t lvs Hne Hlab HunitC adjust w' tot' Hw' Ht' Hm' us' Hus') in Hh. destruct (oth w' tot'); [destruct Hh|]. destruct Hh as [<-|[]].
      now apply (row_keys w tot us w' tot' us').
  Qed.

  (** the rows of the group, in the resampled table *)
  Lemma from_cell w tot : In w u -> In tot total -> (forall c, In c s -> slab tot c = slab w c) -> exists k x ke, srow_key s tot = List.map Some k /\ slab w unit = Some x /\ srow_key e tot = ke /\ unit_in s unit k x t /\
    forall us, srow_key W (row w tot us) = List.map Some (k ++ [x]) ++ ke.
  Proof.
    intros Hw Ht Hm. destruct ufine as (_ & _ & U3). destruct (U3 w Hw) as (r & Hr & E). pose proof (proj1 (key_agree U w r) E) as Ew.
    destruct (srow_key_labels s r) as (k & Ek); [intros c Hc; now apply Hlabs|]. destruct (slab w unit) as [x|] eqn:Ex; [|exfalso; apply (Hunit r Hr); rewrite <- Ew; [exact Ex|apply in_or_app; right; now left]].
    assert (srow_key s tot = srow_key s r) as Es. { apply key_agree. intros c Hc. rewrite (Hm c Hc). apply Ew. apply in_or_app. left. apply in_or_app. auto. }
    exists k, x, (srow_key e tot). split; [now rewrite Es|]. split; [reflexivity|]. split; [reflexivity|]. split.
    - exists r. split; [exact Hr|]. split; [exact Ek|]. rewrite <- Ew; [exact Ex|apply in_or_app; right; now left].
    - intros us. rewrite (srow_key_app (s ++ [resample_idx]) e). f_equal.
      + rewrite srow_key_app, map_app, <- Ek, <- Es. f_equal; [|cbn [srow_key List.map]; now rewrite row_idx, Ex]. apply key_agree. intros c Hc. apply row_lab; [exact Hm|apply in_or_app; auto].
      + apply key_agree. intros c Hc. apply row_lab; [exact Hm|apply in_or_app; auto].
  Qed.
  Lemma others_left w tot k x : srow_key s tot = List.map Some k -> slab w unit = Some x -> oth w tot = M_SqlLeaf.group e (srow_key e tot) (left_out s unit k x t).
  Proof.
    intros Es Ex. unfold others, M_SqlLeaf.group, left_out. rewrite !L_SqlLeaf2.filter_filter. apply filter_ext. intros r. rewrite Ex, !srow_key_app, Es.
    assert (List.length (srow_key s r) = List.length (List.map (@Some string) k)) as Hl by (rewrite <- Es; unfold srow_key; now rewrite !map_length).
    destruct (skey_dec (srow_key s r ++ srow_key e r) (List.map Some k ++ srow_key e tot)) as [E|E], (skey_dec (srow_key s r) (List.map Some k)) as [E1|E1], (skey_dec (srow_key e r) (srow_key e tot)) as [E2|E2], (label_dec (slab r unit) (Some x)) as [E3|E3]; cbn [andb]; try reflexivity; exfalso.
    all: try (apply app_len_inj in E; tauto).
    all: apply E; now rewrite E1, E2.
  Qed.
  Lemma group_J w tot us : In w u -> In tot total -> (forall c, In c s -> slab tot c = slab w c) -> M_SqlLeaf.group W (srow_key W (row w tot us)) J = List.map (relabel (slab w unit)) (oth w tot).
  Proof.
    intros Hw Ht Hm. destruct (from_cell w tot Hw Ht Hm) as (k & x & ke & Ek & Ex & <- & Hu & EW). rewrite EW, Ex.
    rewrite group_split. 2:{ apply (f_equal (@List.length _)) in Ek. unfold srow_key in Ek. rewrite !map_length in *. rewrite !app_length. cbn. lia. }
    rewrite (jk_group s unit t Hidxs Hunit k x Hu), (others_left w tot k x Ek Ex). unfold M_SqlLeaf.group. rewrite filter_map_comm. f_equal. apply filter_ext. intros z. now rewrite (srow_key_relabel e (Some x) z Hidxe).
  Qed.
  Theorem LOO_fine : fine W J LOO.
  Proof.
    split; [exact LOO_NoDup|]. split.
    - intros r' Hr'. destruct (jk_row s unit t Hlabs r' Hr') as (k & x & r & -> & Hu & Hr). apply left_out_in in Hr as (Hr & Ek & Exn). pose proof Hu as (rx & Hrx & Ekx & Exx).
      destruct ufine as (_ & U2 & _). destruct (U2 rx Hrx) as (w & Hw & Ew). pose proof (proj1 (key_agree U w rx) Ew) as Lw. destruct tfine as (_ & T2 & _). destruct (T2 r Hr) as (tot & Ht & Et).
      assert (forall c, In c s -> slab tot c = slab w c) as Hm.
      { intros c Hc. rewrite (sagree tot r Et c Hc), (Lw c) by (apply in_or_app; left; apply in_or_app; auto). apply (proj1 (key_agree s r rx)); [congruence|exact Hc]. }
      assert (slab w unit = Some x) as Ex by (rewrite Lw; [exact Exx|apply in_or_app; right; now left]).
      assert (oth w tot <> []) as Ho. { intros E. assert (In r []) as []. rewrite <- E. apply others_in. split; [exact Hr|]. split; [now symmetry|]. now rewrite Ex. }
      assert (exists us, In us (mtch w tot)) as (us & Hus) by (destruct (matching parse pre s e unit t lvs (key w) tot) as [|us l]; eexists; now left).
      exists (row w tot us). split; [apply LOO_in; exists w, tot, us; auto 10|]. apply key_agree. intros c Hc. apply W_C in Hc as [Hc| ->].
      + rewrite (row_lab w tot us c Hm Hc). rewrite (proj1 (key_agree C tot r) Et c Hc). cbn. destruct (String.eqb_spec c resample_idx) as [->|_]; [contradiction|reflexivity].
      + rewrite row_idx, Ex. reflexivity.
    - intros g Hg. apply LOO_in in Hg as (w & tot & us & Hw & Ht & Hm & Hus & Ho & ->). destruct (oth w tot) as [|r rest] eqn:Eo; [congruence|]. exists (relabel (slab w unit) r). 
      assert (In (relabel (slab w unit) r) (M_SqlLeaf.group W (srow_key W (row w tot us)) J)) as Hi by (rewrite group_J by assumption; rewrite Eo; now left).
      apply group_in in Hi as [H1 H2]. split; [exact H1|]. now symmetry.
  Qed.
  Lemma column_relabel l fs x rows : leaf_column parse l fs (List.map (relabel x) rows) = leaf_column parse l fs rows.
  Proof. destruct l as [l| | |]; [destruct l|..]; try reflexivity; apply (sagg_R parse Hparse x). Qed.
  Theorem LOO_carries l fs : In (l, fs) lvs -> carries parse W J LOO l fs (loo l fs).
  Proof.
    intros Hl g Hg. apply LOO_in in Hg as (w & tot & us & Hw & Ht & Hm & Hus & Ho & ->). rewrite group_J, column_relabel by assumption.
    apply (cell_value parse pre loo s e unit t lvs Hne Hlab Hkind Hpre Hct HunitC adjust w tot Hw Ht Hm Hloo us l fs Hus Hl Ho).
    intros Had. destruct (from_cell w tot Hw Ht Hm) as (k & x & ke & Ek & Ex & _ & Hu & _). destruct tfine as (_ & _ & T3). destruct (T3 tot Ht) as (r & Hr & Er).
    destruct (Hfull Had k x r l fs Hu Hr) as (r' & Hr' & Ec & Ex' & Hv); [|exact Hl|].
    { rewrite <- Ek. apply key_agree. intros c Hc. symmetry. now apply sagree. }
    destruct (matching_cases parse pre s e unit t lvs Hne Hlab HunitC w tot Hw Ht Hm) as [(us' & Em & Hu' & M1 & M2)|[Em Hn]]; rewrite Em in Hus; destruct Hus as [<-|[]].
    - rewrite (u_col parse pre s e unit t lvs Hne Hpre Hct us' l fs Hu' Hl). intros E. apply (column_none _ _ _ _ (Hkind l fs Hl)) in E as [(c & Ec') E]. apply (Hv c Ec'). specialize (E r'). rewrite Ec' in E. apply E. apply group_in. split; [exact Hr'|].
      rewrite (srow_key_app C [unit] r'), (srow_key_app C [unit] us'), M1, Ec, Er. f_equal. cbn. now rewrite Ex', M2, Ex.
    - exfalso. destruct ufine as (_ & U2 & _). destruct (U2 r' Hr') as (g & Hg & Eg). apply (Hn g Hg).
      + rewrite Er, <- Ec. apply (coarser U C); [intros c Hc; apply in_or_app; auto|exact Eg].
      + rewrite Ex, <- Ex'. apply (proj1 (key_agree U g r') Eg). apply in_or_app. right. now left.
  Qed.
  Theorem LOO_summary by_ : (forall c, In c by_ -> In c W) -> summary parse loo by_ lvs J LOO.
  Proof.
    intros Hsub. apply (fine_summary parse loo W); [exact Hsub|exact LOO_fine| |intros l fs Hl; split; [now apply (Hkind l fs)|now apply LOO_carries]].
    intros r' c Hr' Hc. destruct (jk_row s unit t Hlabs r' Hr') as (k & x & r & -> & Hu & Hr). apply left_out_in in Hr as (Hr & _). cbn. destruct (String.eqb_spec c resample_idx) as [->|N]; [discriminate|]. apply Hsub, W_C in Hc as [Hc|Hc]; [now apply HlabC|congruence].
  Qed.
End Loo.

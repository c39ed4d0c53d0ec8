(** The tables of the fast Jackknife: the preaggregated data, UnitSliceCount, TotalCount, LOO. *)
From Coq Require Import Reals List Bool String Arith ZArith Permutation Sorted Lia Lra.
From Verif Require Import M_Num M_Frame L_Frame M_Leaf M_Ops S_Ops L_OpsA M_SqlGlobal S_SqlGlobal L_SqlGlobal M_SqlLeaf S_SqlLeaf L_SqlLeaf L_SqlLeaf2 M_SqlOps S_SqlOps L_SqlOps L_SqlOps7 M_SqlJackknife S_SqlJackknife L_SqlJack1 L_SqlJack4 L_SqlJack5 M_SqlJackFast L_SqlSummary L_SqlSummary2 L_SqlLoo1.
Import ListNotations.
Open Scope string_scope.
Open Scope list_scope.
Open Scope R_scope.

Lemma NoDup_app_intro {A} (l1 l2 : list A) : NoDup l1 -> NoDup l2 -> (forall x, In x l1 -> ~ In x l2) -> NoDup (l1 ++ l2).
Proof. induction 1 as [|x l1 Hx _ IH]; intros H2 H; [exact H2|]. cbn. constructor; [intros Hi; apply in_app_or in Hi as [Hi|Hi]; [contradiction|apply (H x (or_introl eq_refl)); exact Hi]|]. apply IH; auto. intros y Hy. apply H. now right. Qed.
Lemma NoDup_flat {A B K} (key : B -> K) (f : A -> list B) l : NoDup l -> (forall a, In a l -> NoDup (List.map key (f a))) ->
  (forall a b g h, In a l -> In b l -> In g (f a) -> In h (f b) -> key g = key h -> a = b) -> NoDup (List.map key (flat_map f l)).
Proof.
  induction l as [|a l IH]; intros Hn Hf Hd; cbn [flat_map List.map]; [constructor|]. inversion Hn as [|? ? Ha Hn']; subst. rewrite map_app. apply NoDup_app_intro.
  - apply Hf. now left.
  - apply IH; auto; [intros b Hb; apply Hf; now right|]. intros b c g h Hb Hc. apply Hd; now right.
  - intros k H1 H2. apply in_map_iff in H1 as (g & <- & Hg). apply in_map_iff in H2 as (h & E & Hh). apply in_flat_map in Hh as (b & Hb & Hh). assert (a = b) as -> by (apply (Hd a b g h); auto; [now left|now right]). contradiction.
Qed.
Lemma INR_sub1 n : (0 < INR n - 1) <-> (2 <= n)%nat.
Proof. assert (INR 1 = 1) as E by reflexivity. split; intros H; [assert (INR 1 < INR n) as H' by (rewrite E; lra); apply INR_lt in H'; lia|]. assert (INR 1 < INR n) by (apply lt_INR; lia). lra. Qed.

Section Loo.
  Variables (parse : string -> cond) (pre loo : leaf -> list string -> string) (s e : list string) (unit : string) (t : stable) (lvs : list (leaf * list string)).
  Notation C := (s ++ e). Notation U := ((s ++ e) ++ [unit]).
  Hypothesis Hne : t <> [].
  Hypothesis Hlab : forall r c, In r t -> In c U -> slab r c <> None.
  Hypothesis Hkind : forall l fs, In (l, fs) lvs -> sum_or_count_leaf l.
  Hypothesis Hpre : forall l fs l' fs', In (l, fs) lvs -> In (l', fs') lvs -> pre l fs = pre l' fs' -> (l, fs) = (l', fs').
  Hypothesis Hct : forall l fs, In (l, fs) lvs -> pre l fs <> "ct".
  Hypothesis HunitC : ~ In unit C.

  Lemma column_of_in name l fs : (forall l fs l' fs', In (l, fs) lvs -> In (l', fs') lvs -> name l fs = name l' fs' -> (l, fs) = (l', fs')) -> In (l, fs) lvs -> column_of name lvs (name l fs) = Some (l, fs).
  Proof.
    intros Hinj Hl. unfold column_of. destruct (find _ lvs) as [[l' fs']|] eqn:E.
    - apply find_some in E as [Hi E]. cbn [fst snd] in E. apply String.eqb_eq in E. f_equal. symmetry. now apply Hinj.
    - apply (find_none _ _ E) in Hl. cbn in Hl. now rewrite String.eqb_refl in Hl.
  Qed.
  (** ** The preaggregated data *)
  Notation D := (preagg parse pre lvs U t).
  Lemma D_fine : fine U t D.
  Proof.
    unfold preagg. split; [now apply grouped_NoDup|]. split.
    - intros r Hr. eexists. split; [apply grouped_in; [exact Hne|]; exists r; split; [exact Hr|reflexivity]|]. apply grow_key.
    - intros g Hg. apply grouped_in in Hg as (r & Hr & ->); [|exact Hne]. exists r. split; [exact Hr|]. apply grow_key.
  Qed.
  Lemma D_col g l fs : In g D -> In (l, fs) lvs -> snum g (pre l fs) = leaf_column parse l fs (M_SqlLeaf.group U (srow_key U g) t).
  Proof. intros Hg Hl. unfold preagg in Hg. apply grouped_in in Hg as (r & Hr & ->); [|exact Hne]. rewrite grow_key. cbn [grow snum]. rewrite (column_of_in pre l fs Hpre Hl). reflexivity. Qed.
  Lemma exact_carries (W : list string) T T' l fs p : (forall g, In g T' -> snum g p = leaf_column parse l fs (M_SqlLeaf.group W (srow_key W g) T)) -> carries parse W T T' l fs p.
  Proof. intros H g Hg. rewrite (H g Hg). destruct (leaf_column parse l fs _); auto. Qed.
  Theorem D_summary by_ : (forall c, In c by_ -> In c C) -> summary parse pre by_ lvs t D.
  Proof.
    intros Hsub. apply (fine_summary parse pre U); [intros c Hc; apply in_or_app; auto|exact D_fine|intros r c Hr Hc; apply Hlab; [exact Hr|apply in_or_app; auto]|].
    intros l fs Hl. split; [now apply (Hkind l fs)|]. apply exact_carries. intros g Hg. now apply D_col.
  Qed.

  (** ** UnitSliceCount *)
  Notation u := (unit_slice parse U D).
  Lemma D_ne : D <> []. Proof. now apply grouped_ne. Qed.
  Lemma D_one d : In d D -> M_SqlLeaf.group U (srow_key U d) D = [d].
  Proof. intros Hd. unfold preagg in *. apply grouped_in in Hd as (r & Hr & ->); [|exact Hne]. rewrite grow_key. now apply grouped_group. Qed.
  Lemma u_in g : In g u <-> exists d, In d D /\ (forall c, In c U -> slab g c = slab d c) /\ g = grow U (fun c rows => if String.eqb c "ct" then Some (INR (List.length rows)) else sum_of parse c rows) D (srow_key U d).
  Proof.
    unfold unit_slice. rewrite grouped_in by exact D_ne. split; intros (d & Hd & H).
    - exists d. split; [exact Hd|]. split; [|exact H]. intros c Hc. subst g. now apply grow_lab.
    - exists d. tauto.
  Qed.
  Lemma u_fine : fine U t u.
  Proof.
    destruct D_fine as (F1 & F2 & F3). split; [apply grouped_NoDup; exact D_ne|]. split.
    - intros r Hr. destruct (F2 r Hr) as (d & Hd & E). eexists. split; [apply grouped_in; [exact D_ne|]; exists d; split; [exact Hd|reflexivity]|]. now rewrite grow_key.
    - intros g Hg. apply u_in in Hg as (d & Hd & Hl & _). destruct (F3 d Hd) as (r & Hr & E). exists r. split; [exact Hr|]. rewrite <- E. now apply key_agree.
  Qed.
  Lemma u_col g l fs : In g u -> In (l, fs) lvs -> snum g (pre l fs) = leaf_column parse l fs (M_SqlLeaf.group U (srow_key U g) t).
  Proof.
    intros Hg Hl. apply u_in in Hg as (d & Hd & Hlb & ->). rewrite grow_key. cbn [grow snum]. rewrite (proj2 (String.eqb_neq _ _) (Hct l fs Hl)), D_one, sum_of_one by exact Hd. now apply D_col.
  Qed.
  Lemma u_ct g : In g u -> snum g "ct" = Some 1.
  Proof. intros Hg. apply u_in in Hg as (d & Hd & Hlb & ->). cbn [grow snum String.eqb]. rewrite D_one by exact Hd. reflexivity. Qed.
  Lemma u_ne : u <> []. Proof. apply grouped_ne, D_ne. Qed.

  (** ** TotalCount *)
  Notation total := (total_count parse C u).
  Lemma subC c : In c C -> In c U. Proof. intros H. apply in_or_app. auto. Qed.
  Lemma tot_fine : fine C t total.
  Proof.
    destruct u_fine as (F1 & F2 & F3). unfold total_count. split; [apply grouped_NoDup, u_ne|]. split.
    - intros r Hr. destruct (F2 r Hr) as (g & Hg & E). eexists. split; [apply grouped_in; [exact u_ne|]; exists g; split; [exact Hg|reflexivity]|]. rewrite grow_key. apply (coarser U C subC). exact E.
    - intros g Hg. apply grouped_in in Hg as (w & Hw & ->); [|exact u_ne]. rewrite grow_key. destruct (F3 w Hw) as (r & Hr & E). exists r. split; [exact Hr|]. apply (coarser U C subC). exact E.
  Qed.
  Lemma tot_col g l fs : In g total -> In (l, fs) lvs -> snum g (pre l fs) = leaf_column parse l fs (M_SqlLeaf.group C (srow_key C g) t).
  Proof.
    intros Hg Hl. destruct tot_fine as (_ & _ & F3). destruct (F3 g Hg) as (r0 & Hr0 & E0). pose proof Hg as Hg'. unfold total_count in Hg'. apply grouped_in in Hg' as (w & Hw & ->); [|exact u_ne]. rewrite grow_key in *. cbn [grow snum].
    assert (forall g, In g u -> snum g (pre l fs) = leaf_column parse l fs (M_SqlLeaf.group U (srow_key U g) t)) as Hex by (intros; now apply u_col).
    destruct (leaf_column parse l fs (M_SqlLeaf.group C (srow_key C w) t)) as [v|] eqn:E.
    - apply (fine_sum parse U C t u l fs (pre l fs) subC u_fine (Hkind l fs Hl)); [now apply exact_carries| |exact E]. exists r0. auto.
    - apply (fine_none parse U C t u l fs (pre l fs) subC (Hkind l fs Hl)); [exact Hex|exact E].
  Qed.
  Lemma tot_ct g : In g total -> snum g "ct" = Some (INR (List.length (M_SqlLeaf.group C (srow_key C g) u))).
  Proof.
    intros Hg. unfold total_count in Hg. apply grouped_in in Hg as (w & Hw & ->); [|exact u_ne]. rewrite grow_key. cbn [grow snum]. rewrite sum_of_some.
    - f_equal. assert (forall rows, (forall r, In r rows -> snum r "ct" = Some 1) -> Rsum (List.map (fun r => match snum r "ct" with Some x => x | None => 0 end) rows) = INR (List.length rows)) as H.
      { induction rows as [|r rows IH]; intros H; [reflexivity|]. cbn [List.map Rsum]. rewrite (H r (or_introl eq_refl)), IH by (intros z Hz; apply H; now right). change (List.length (r :: rows)) with (S (List.length rows)). rewrite S_INR. lra. }
      apply H. intros r Hr. apply group_in in Hr as [Hr _]. now apply u_ct.
    - exists w. split; [now apply group_in|]. rewrite u_ct by exact Hw. discriminate.
  Qed.

  (** ** LOO *)
  Variable adjust : bool.
  Notation LOO := (loo_table adjust pre loo lvs s C unit u total).
  Definition sl (a : skey) (c : string) := match assoc c (combine (s ++ [unit]) a) with Some l => l | None => None end.
  Definition here (a : skey) (tot : srow) (c : string) := if mem c (s ++ [unit]) then sl a c else slab tot c.
  Definition matching (a : skey) (tot : srow) := filter (fun us => using_match U (here a tot) (slab us)) u.
  Definition lrow (a : skey) (tot us : srow) := SRow (fun c => if String.eqb c resample_idx then sl a unit else here a tot c) (loo_columns adjust pre loo lvs tot us).
  Definition cell (a : skey) (tot us : srow) : stable :=
    match lift2 Rminus (snum tot "ct") (coalesce0 (snum us "ct")) with Some d => if Rltb 0 d then [lrow a tot us] else [] | None => [] end.
  Lemma LOO_eq : LOO = flat_map (fun a => flat_map (fun tot => flat_map (cell a tot) (match matching a tot with [] => [null_row] | l => l end))
     (match filter (fun tot => using_match s (slab tot) (sl a)) total with [] => [null_row] | l => l end)) (nodup skey_dec (List.map (srow_key (s ++ [unit])) u)).
  Proof. reflexivity. Qed.
  Lemma using_true cols a b : using_match cols a b = true <-> forall c, In c cols -> a c = b c /\ a c <> None.
  Proof.
    unfold using_match. rewrite forallb_forall. split; intros H c Hc; specialize (H c Hc).
    - apply sql_eq_true. destruct (sql_eq (a c) (b c)) as [[]|]; congruence.
    - apply sql_eq_true in H. now rewrite H.
  Qed.
  Lemma sl_key w c : In c (s ++ [unit]) -> sl (srow_key (s ++ [unit]) w) c = slab w c.
  Proof. intros H. unfold sl. now rewrite assoc_key. Qed.
  Lemma u_lab w c : In w u -> In c U -> slab w c <> None.
  Proof. intros Hw Hc. destruct u_fine as (_ & _ & F3). destruct (F3 w Hw) as (r & Hr & E). rewrite (proj1 (key_agree U w r) E c Hc). now apply Hlab. Qed.
  Lemma tot_lab g c : In g total -> In c C -> slab g c <> None.
  Proof. intros Hg Hc. destruct tot_fine as (_ & _ & F3). destruct (F3 g Hg) as (r & Hr & E). rewrite (proj1 (key_agree C g r) E c Hc). apply Hlab; [exact Hr|now apply subC]. Qed.

  (** for a unit and slice that occur (in the row w), and the totals of that slice *)
  Section Cell.
    Variables (w tot : srow).
    Hypothesis Hw : In w u. Hypothesis Htot : In tot total.
    Hypothesis Hs : forall c, In c s -> slab tot c = slab w c.
    Notation a := (srow_key (s ++ [unit]) w).
    Lemma here_C c : In c C -> here a tot c = slab tot c.
    Proof.
      intros Hc. unfold here. destruct (mem c (s ++ [unit])) eqn:E; [|reflexivity]. apply mem_in in E. rewrite sl_key by exact E. apply in_app_or in E as [E|[E|[]]]; [symmetry; now apply Hs|]. subst c. contradiction.
    Qed.
    Lemma here_unit : here a tot unit = slab w unit.
    Proof. unfold here. assert (In unit (s ++ [unit])) as H by (apply in_or_app; right; now left). rewrite (proj2 (mem_in _ _) H). now apply sl_key. Qed.
    Lemma match_us us : In us u -> using_match U (here a tot) (slab us) = true <-> srow_key C us = srow_key C tot /\ slab us unit = slab w unit.
    Proof.
      intros Hu. rewrite using_true, key_agree. split.
      - intros H. split; [intros c Hc; destruct (H c (subC c Hc)) as [E _]; rewrite here_C in E by exact Hc; now symmetry|]. destruct (H unit) as [E _]; [apply in_or_app; right; now left|]. rewrite here_unit in E. now symmetry.
      - intros [H1 H2] c Hc. apply in_app_or in Hc as [Hc|[<-|[]]].
        + rewrite here_C by exact Hc. split; [symmetry; now apply H1|now apply tot_lab].
        + rewrite here_unit. split; [now symmetry|]. apply u_lab; [exact Hw|]. apply in_or_app. right. now left.
    Qed.
    Lemma U_key us us' : srow_key C us = srow_key C us' -> slab us unit = slab us' unit -> srow_key U us = srow_key U us'.
    Proof. intros H1 H2. rewrite (srow_key_app C [unit] us), (srow_key_app C [unit] us'), H1. f_equal. cbn. now rewrite H2. Qed.
    Lemma u_unique us us' : In us u -> In us' u -> srow_key U us = srow_key U us' -> us = us'.
    Proof.
      intros H1 H2 E. destruct u_fine as (F1 & _). revert F1 H1 H2 E. generalize u. intros l. induction l as [|z l IH]; intros F1 H1 H2 E; [destruct H1|]. cbn [List.map] in F1. inversion F1 as [|? ? N1 N2]; subst.
      destruct H1 as [<-|H1], H2 as [<-|H2]; auto; exfalso; apply N1; [rewrite E|rewrite <- E]; now apply in_map.
    Qed.
    Lemma matching_cases : (exists us, matching a tot = [us] /\ In us u /\ srow_key C us = srow_key C tot /\ slab us unit = slab w unit) \/
                           (matching a tot = [] /\ forall us, In us u -> srow_key C us = srow_key C tot -> slab us unit <> slab w unit).
    Proof.
      destruct (matching a tot) as [|us l] eqn:E; [right|left].
      - split; [reflexivity|]. intros us Hu H1 H2. assert (In us []) as []. rewrite <- E. unfold matching. apply filter_In. split; [exact Hu|]. apply match_us; auto.
      - assert (In us (matching a tot)) as Hi by (rewrite E; now left). unfold matching in Hi. apply filter_In in Hi as [Hu Hm]. apply match_us in Hm as [M1 M2]; [|exact Hu]. exists us. split; [|auto].
        rewrite <- E. unfold matching. apply filter_single; [destruct u_fine as (F1 & _); now apply NoDup_map_inv in F1|exact Hu|]. intros us' Hu'. rewrite match_us by exact Hu'. split; [|intros ->; auto].
        intros [H1 H2]. apply u_unique; auto. apply U_key; congruence.
    Qed.
    (** the rows of the group whose unit is another one *)
    Definition others := filter (fun r => if label_dec (slab r unit) (slab w unit) then false else true) (M_SqlLeaf.group C (srow_key C tot) t).
    Lemma others_in r : In r others <-> In r t /\ srow_key C r = srow_key C tot /\ slab r unit <> slab w unit.
    Proof. unfold others. rewrite filter_In, group_in. destruct (label_dec _ _) as [E|E]; split; intros H; try tauto; destruct H as [? H]; discriminate. Qed.
    Lemma cell_rows : forall us, In us (match matching a tot with [] => [null_row] | l => l end) -> cell a tot us = match others with [] => [] | _ => [lrow a tot us] end.
    Proof.
      intros us Hus. unfold cell. rewrite tot_ct by exact Htot. destruct tot_fine as (_ & _ & F3). destruct (F3 tot Htot) as (r0 & Hr0 & E0). destruct u_fine as (U1 & U2 & U3).
      assert (forall g, In g (M_SqlLeaf.group C (srow_key C tot) u) -> exists r, In r t /\ srow_key U g = srow_key U r /\ srow_key C r = srow_key C tot) as HG.
      { intros g Hg. apply group_in in Hg as [Hg Eg]. destruct (U3 g Hg) as (r & Hr & Er). exists r. split; [exact Hr|]. split; [exact Er|]. rewrite <- Eg. symmetry. apply (coarser U C subC). exact Er. }
      assert (forall r, In r t -> srow_key C r = srow_key C tot -> exists g, In g (M_SqlLeaf.group C (srow_key C tot) u) /\ srow_key U g = srow_key U r) as HG'.
      { intros r Hr E. destruct (U2 r Hr) as (g & Hg & Eg). exists g. split; [|exact Eg]. apply group_in. split; [exact Hg|]. rewrite <- E. apply (coarser U C subC). exact Eg. }
      assert (NoDup (M_SqlLeaf.group C (srow_key C tot) u)) as HN. { apply NoDup_filter. now apply NoDup_map_inv in U1. }
      assert (forall g r, srow_key U g = srow_key U r -> slab g unit = slab r unit) as HUu by (intros g r E; apply (proj1 (key_agree U g r) E); apply in_or_app; right; now left).
      destruct matching_cases as [(us' & Em & Hu & M1 & M2)|[Em Hn]]; rewrite Em in Hus; destruct Hus as [<-|[]].
      - rewrite u_ct by exact Hu. cbn [coalesce0 lift2]. set (grp := M_SqlLeaf.group C (srow_key C tot) u) in *.
        assert (In us' grp) as Hg by (now apply group_in).
        assert ((2 <= List.length grp)%nat <-> others <> []) as H2.
        { split.
          - intros Hl. assert (exists g, In g grp /\ g <> us') as (g & Hgg & Hgn).
            { destruct grp as [|g1 [|g2 rest]]; [cbn in Hl; lia|cbn in Hl; lia|]. inversion HN as [|? ? N1 N2]; subst. destruct Hg as [<-|Hg]; [exists g2; split; [cbn; auto|intros ->; apply N1; now left]|exists g1; split; [now left|intros ->; contradiction]]. }
            destruct (HG g Hgg) as (r & Hr & Er & Ec). intros E. assert (In r []) as []. rewrite <- E. apply others_in. split; [exact Hr|]. split; [exact Ec|]. intros Ex. apply Hgn. apply group_in in Hgg as [Hgu Hgc]. apply u_unique; auto. apply U_key; [congruence|]. rewrite (HUu g r Er). congruence.
          - intros Hon. destruct others as [|r rest] eqn:Eo; [congruence|]. assert (In r others) as Hr by (rewrite Eo; now left). apply others_in in Hr as (Hr & Ec & Ex). destruct (HG' r Hr Ec) as (g & Hgg & Eg).
            assert (g <> us') as Hgn by (intros ->; apply Ex; rewrite <- (HUu us' r Eg); exact M2). destruct grp as [|g1 [|g2 rest']]; [destruct Hg|destruct Hg as [<-|[]], Hgg as [<-|[]]; congruence|cbn; lia]. }
        destruct (Rltb 0 (INR (List.length grp) - 1)) eqn:El; unfold Rltb in El; destruct (Rlt_dec _ _) as [Hlt|Hlt]; try discriminate.
        + apply INR_sub1, H2 in Hlt. destruct others; [congruence|reflexivity].
        + destruct others as [|z zs]; [reflexivity|]. exfalso. apply Hlt, INR_sub1, H2. discriminate.
      - cbn [null_row snum coalesce0 lift2]. destruct (HG' r0 Hr0 (eq_sym E0)) as (g & Hgg & Eg). assert (others <> []) as Ho.
        { intros E. assert (In r0 []) as []. rewrite <- E. apply others_in. split; [exact Hr0|]. split; [now symmetry|]. rewrite <- (HUu g r0 Eg). apply group_in in Hgg as [Hgu Hgc]. now apply Hn. }
        destruct others as [|z zs]; [congruence|]. unfold Rltb. destruct (Rlt_dec _ _) as [Hlt|Hlt]; [reflexivity|]. exfalso. apply Hlt. set (grp := M_SqlLeaf.group C (srow_key C tot) u) in *. destruct grp as [|g1 rest]; [destruct Hgg|]. change (List.length (g1 :: rest)) with (S (List.length rest)). pose proof (pos_INR (List.length rest)). rewrite S_INR. lra.
    Qed.
    (** the value *)
    Hypothesis Hloo : forall l fs l' fs', In (l, fs) lvs -> In (l', fs') lvs -> loo l fs = loo l' fs' -> (l, fs) = (l', fs').
    Lemma cell_value us l fs : In us (match matching a tot with [] => [null_row] | l => l end) -> In (l, fs) lvs -> others <> [] ->
      (adjust = false -> snum us (pre l fs) <> None) ->
      match leaf_column parse l fs others with Some v => snum (lrow a tot us) (loo l fs) = Some v | None => snum (lrow a tot us) (loo l fs) = None \/ snum (lrow a tot us) (loo l fs) = Some 0 end.
    Proof.
      intros Hus Hl Ho Had. cbn [lrow snum]. unfold loo_columns. rewrite (column_of_in loo l fs Hloo Hl). cbn [fst snd]. rewrite (tot_col tot l fs Htot Hl). pose proof (Hkind l fs Hl) as Hk.
      set (A := M_SqlLeaf.group C (srow_key C tot) t) in *. set (B := filter (fun r => if label_dec (slab r unit) (slab w unit) then true else false) A).
      assert (total_of parse l fs A = total_of parse l fs B + total_of parse l fs others) as Hsplit.
      { rewrite (total_split parse l fs (fun r => if label_dec (slab r unit) (slab w unit) then true else false) A). f_equal. apply total_ext. intros r _. now destruct (label_dec _ _). }
      assert ((exists v, snum us (pre l fs) = Some v /\ v = total_of parse l fs B) \/ (snum us (pre l fs) = None /\ total_of parse l fs B = 0)) as HB.
      { destruct matching_cases as [(us' & Em & Hu & M1 & M2)|[Em Hn]]; rewrite Em in Hus; destruct Hus as [<-|[]].
        - rewrite (u_col us' l fs Hu Hl). assert (M_SqlLeaf.group U (srow_key U us') t = B) as ->.
          { unfold B, A, M_SqlLeaf.group. rewrite L_SqlLeaf2.filter_filter. apply filter_ext. intros r. rewrite (srow_key_app C [unit] us'), (srow_key_app C [unit] r), M1. change (srow_key [unit] us') with [slab us' unit]. change (srow_key [unit] r) with [slab r unit]. rewrite M2. destruct (skey_dec (srow_key C r) _) as [E|E]; destruct (label_dec _ _) as [E'|E'], (skey_dec _ _) as [E''|E'']; cbn; try reflexivity; exfalso.
            - apply E''. now rewrite E, E'.
            - apply app_inj_tail in E'' as [_ E'']. congruence.
            - apply app_inj_tail in E'' as [E'' _]. congruence.
            - apply app_inj_tail in E'' as [E'' _]. congruence. }
          destruct (leaf_column parse l fs B) as [v|] eqn:E; [left; exists v; split; [reflexivity|now apply column_some]|right; split; [reflexivity|now apply none_total]].
        - right. split; [reflexivity|]. assert (B = []) as ->; [|reflexivity]. destruct B as [|r rest] eqn:EB; [reflexivity|]. exfalso. assert (In r B) as Hr by (rewrite EB; now left). unfold B in Hr. apply filter_In in Hr as [Hr E]. destruct (label_dec _ _) as [E'|]; [|discriminate]. apply group_in in Hr as [Hr Ec].
          destruct u_fine as (_ & U2 & _). destruct (U2 r Hr) as (g & Hg & Eg). apply (Hn g Hg); [rewrite <- Ec; apply (coarser U C subC); exact Eg|]. rewrite <- E'. apply (proj1 (key_agree U g r) Eg). apply in_or_app. right. now left. }
      assert (leaf_column parse l fs A <> None -> exists w0, leaf_column parse l fs A = Some w0 /\ w0 = total_of parse l fs B + total_of parse l fs others) as HA.
      { intros H. destruct (leaf_column parse l fs A) as [w0|] eqn:E; [|congruence]. exists w0. split; [reflexivity|]. rewrite <- Hsplit. now apply column_some. }
      assert (forall v', (if adjust then coalesce0 (snum us (pre l fs)) else snum us (pre l fs)) = v' -> v' = Some (total_of parse l fs B)) as HU.
      { intros v' <-. destruct HB as [(v & E1 & ->)|[E1 E2]]; rewrite E1; [now destruct adjust|]. destruct adjust; [now rewrite E2|]. exfalso. now apply (Had eq_refl). }
      rewrite (HU _ eq_refl).
      destruct (leaf_column parse l fs others) as [v|] eqn:Eo.
      - assert (leaf_column parse l fs A <> None) as Hn.
        { intros E. apply (column_none _ _ _ _ Hk) in E as [Hks Hz]. assert (leaf_column parse l fs others = None); [|congruence]. apply (column_none _ _ _ _ Hk). split; [exact Hks|]. intros r Hr. apply Hz. unfold others in Hr. now apply filter_In in Hr. }
        destruct (HA Hn) as (w0 & -> & ->). cbn [lift2]. rewrite (column_some parse l fs others v Hk Eo). f_equal. lra.
      - destruct (leaf_column parse l fs A) as [w0|] eqn:EA; [right|now left]. destruct HA as (w1 & E & ->); [discriminate|]. injection E as ->. cbn [lift2]. rewrite (none_total parse l fs others Hk Eo). f_equal. lra.
    Qed.
  End Cell.
End Loo.

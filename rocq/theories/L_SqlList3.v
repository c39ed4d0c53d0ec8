(** The query of a MetricList: its columns, and its rows. *)
From Coq Require Import Reals List Bool String Arith Permutation Sorted Lia Lra.
From Verif Require Import M_Num M_Frame L_Frame M_Ops S_Ops L_OpsA L_OpsB L_OpsC M_SqlGlobal S_SqlGlobal L_SqlGlobal M_SqlLeaf S_SqlLeaf L_SqlLeaf L_SqlLeaf2 M_SqlOps S_SqlOps L_SqlOps L_SqlOps2 L_SqlOps3 L_SqlOps4 L_SqlOps5 L_SqlOps6 L_SqlBin L_SqlBin2 L_SqlBin3 L_SqlScope L_SqlOps7 M_SqlList S_SqlList L_SqlList L_SqlList2.
Import ListNotations.
Open Scope string_scope.
Open Scope list_scope.

Lemma forall2_nth {A B} (P : A -> B -> Prop) l l' i a : Forall2 P l l' -> nth_error l i = Some a -> exists b, nth_error l' i = Some b /\ P a b.
Proof. intros H. revert i. induction H as [|x y l l' Hxy H IH]; intros [|i] E; cbn in *; try discriminate; [injection E as <-; eauto|auto]. Qed.
Lemma forall2_in {A B} (P : A -> B -> Prop) l l' : Forall2 P l l' -> forall a, In a l -> exists b, In b l' /\ P a b.
Proof. induction 1 as [|x y l l' H HF IH]; intros a []; [subst; exists y; split; [now left|exact H]|destruct (IH a H0) as (b & Hb & Hp); exists b; split; [now right|exact Hp]]. Qed.
Lemma forall2_map_eq {A B C} (P : A -> B -> Prop) (f : A -> C) (g : B -> C) l l' : Forall2 P l l' -> (forall a b, In a l -> In b l' -> P a b -> f a = g b) -> List.map f l = List.map g l'.
Proof. induction 1 as [|x y l l' H HF IH]; intros Hf; [reflexivity|]. cbn. f_equal; [apply Hf; auto; now left|apply IH; intros a b Ha Hb; apply Hf; now right]. Qed.
Lemma forall2_len {A B} (P : A -> B -> Prop) l l' : Forall2 P l l' -> List.length l = List.length l'.
Proof. induction 1; cbn; congruence. Qed.

(** ** Columns and scope *)
Section Scope.
  Variables (idx : list string) (ch : list (string * sqlq)).
  Hypothesis Hne : ch <> [].
  Hypothesis Hd : NoDup idx.
  Hypothesis Hgood : Forall (good_child idx) ch.
  Hypothesis Hnames : NoDup (List.map fst ch).
  Hypothesis Hren : ForallOrdPairs (fun r p => ~ renamed (snd r) (snd p)) ch.

  Definition pick (places : list nat) : list (string * (nat * string)) := List.map (fun p => (fst (fst p), (snd p, fst (fst p)))) (combine ch places).
  Lemma good_values p : In p ch -> filter (fun c => negb (mem c idx)) (columns_of (snd p)) = [fst p].
  Proof. intros Hp. rewrite Forall_forall in Hgood. destruct (Hgood p Hp) as [[run Hf] Hv]. apply shape_vals. now apply (form_shape idx (fst p) run). Qed.
  Lemma pick_fst places : List.length places = List.length ch -> List.map fst (pick places) = List.map fst ch.
  Proof.
    unfold pick. clear. revert places. induction ch as [|p c IH]; intros [|i places] H; try discriminate; [reflexivity|]. cbn. f_equal. apply IH. now injection H.
  Qed.
  Lemma pick_all (l : list (string * (nat * string))) : forall done, NoDup (List.map fst (done ++ l)) -> (forall c, In c (done ++ l) -> snd (snd c) = fst c) -> fold_left add_column l done = done ++ l.
  Proof.
    induction l as [|c l IH]; intros done HN HE; [now rewrite app_nil_r|]. cbn [fold_left].
    assert (NoDup (List.map fst (c :: done ++ l))) as HN'. { eapply Permutation_NoDup; [|exact HN]. apply Permutation_map, Permutation_sym, Permutation_middle. }
    cbn in HN'. inversion HN' as [|? ? Hx _]; subst. destruct c as [v x]. rewrite add_column_new.
    - rewrite IH; [now rewrite <- app_assoc|rewrite <- app_assoc; exact HN|rewrite <- app_assoc; exact HE].
    - intros d Hin E. apply Hx. rewrite map_app. apply in_or_app. left. cbn [fst]. pose proof (HE d (in_or_app _ _ _ (or_introl Hin))) as E1.
      pose proof (HE (v, x) (in_or_app done ((v, x) :: l) _ (or_intror (or_introl eq_refl)))) as E2. cbn in E2. rewrite E in E1. apply in_map_iff. exists d. split; [congruence|exact Hin].
    - intros H. apply Hx. rewrite map_app. apply in_or_app. auto.
  Qed.
  Lemma chain_columns places : List.length places = List.length ch ->
    fold_left add_column (flat_map (fun p => List.map (fun a => (a, (snd p, a))) (filter (fun c => negb (mem c idx)) (columns_of (fst p)))) (combine (List.map snd ch) places)) [] = pick places.
  Proof.
    intros Hl. assert (flat_map (fun p => List.map (fun a => (a, (snd p, a))) (filter (fun c => negb (mem c idx)) (columns_of (fst p)))) (combine (List.map snd ch) places) = pick places) as ->.
    { unfold pick. pose proof good_values as HG. clear - Hl HG. revert places Hl. induction ch as [|p c IH]; intros [|i places] H; try discriminate; [reflexivity|]. cbn [List.map combine flat_map fst snd].
      rewrite (HG p) by now left. cbn [List.map app]. f_equal. apply IH; [intros q Hq; apply HG; now right|now injection H]. }
    rewrite pick_all; [reflexivity| |].
    - cbn [app]. now rewrite pick_fst.
    - cbn [app]. intros c Hc. unfold pick in Hc. apply in_map_iff in Hc as (p & <- & _). reflexivity.
  Qed.

  Record layout (q : listq) (gs : list (list (string * sqlq))) (tables : list ltable) (places : list nat) : Prop := {
    l_tables : Forall2 (tform idx) gs tables;
    l_groups : Forall (fun g => g <> []) gs;
    l_all : Permutation (List.concat gs) ch;
    l_places : Forall2 (placed_in gs) ch places;
    l_query : (exists T, tables = [T] /\ gs = [ch] /\ q = One T) \/ q = Chain (pick places) tables idx }.
  Lemma query_layout : exists gs tables places, layout (list_query idx (List.map snd ch)) gs tables places.
  Proof.
    destruct (put_all_step idx ch [] [] (Forall2_nil _) (Forall_nil _) Hgood Hnames (fun r p (H : In r []) => match H with end) Hren) as (gs & A & B & C & D & _ & _ & G).
    unfold list_query. rewrite map_map. destruct (put_all [] (List.map (fun p => table_of (snd p)) ch)) as [tables places]. cbn [fst snd List.concat app] in *. exists gs, tables, places.
    pose proof (forall2_len _ _ _ D) as Hl. symmetry in Hl.
    constructor; auto. rewrite chain_columns by assumption. destruct tables as [|T [|T2 tables]]; auto.
    left. exists T. split; [reflexivity|]. inversion A as [|g ? gs' ? HT A']; subst. inversion A'; subst. specialize (G ltac:(cbn; lia)). cbn in G. rewrite app_nil_r in G. subst g. auto.
  Qed.
  Lemma group_names gs tables places q g v : layout q gs tables places -> In g gs -> In v (List.map fst g) -> ~ In v idx.
  Proof.
    intros L Hg Hv. apply in_map_iff in Hv as (p & <- & Hp). rewrite Forall_forall in Hgood. apply Hgood. apply (Permutation_in _ (l_all _ _ _ _ L)). apply in_concat. eauto.
  Qed.
  Lemma group_nodup gs tables places q g : layout q gs tables places -> In g gs -> NoDup (List.map fst g).
  Proof.
    intros L Hg. pose proof (Permutation_NoDup (Permutation_map fst (Permutation_sym (l_all _ _ _ _ L))) Hnames) as N. clear - N Hg. revert N. induction gs as [|h gs IH]; [destruct Hg|]. cbn. rewrite map_app. intros N. destruct Hg as [->|Hg]; [now apply NoDup_head in N|]. apply IH; [exact Hg|]. now apply NoDup_tail in N.
  Qed.
  Lemma query_columns : list_columns (list_query idx (List.map snd ch)) = idx ++ List.map fst ch.
  Proof.
    destruct query_layout as (gs & tables & places & L). pose proof (forall2_len _ _ _ (l_places _ _ _ _ L)) as Hl. destruct (l_query _ _ _ _ L) as [(T & ET & EG & ->)| ->]; cbn [list_columns].
    - apply (tform_columns idx ch); [|intros v Hv; apply (group_names gs tables places _ ch v L); [subst; now left|exact Hv]]. pose proof (l_tables _ _ _ _ L) as H. subst. now inversion H.
    - now rewrite pick_fst by auto.
  Qed.
  Hypothesis Hscoped : forall p, In p ch -> well_scoped (snd p) = true.
  Lemma query_scoped : list_scoped (list_query idx (List.map snd ch)) = true.
  Proof.
    destruct query_layout as (gs & tables & places & L).
    assert (forall g, In g gs -> g <> [] /\ forall p, In p g -> well_scoped (snd p) = true) as HG.
    { intros g Hg. pose proof (l_groups _ _ _ _ L) as B. rewrite Forall_forall in B. split; [auto|]. intros p Hp. apply Hscoped, (Permutation_in _ (l_all _ _ _ _ L)), in_concat. eauto. }
    assert (forall T, In T tables -> table_scoped T = true) as HT.
    { intros T HT. destruct (Forall2_In_r _ _ _ (l_tables _ _ _ _ L) T HT) as (g & Hg & Hf). destruct (HG g Hg). now apply (tform_scoped idx g). }
    destruct (l_query _ _ _ _ L) as [(T & -> & _ & ->)| ->]; cbn [list_scoped]; [apply HT; now left|].
    apply andb_true_intro. split; [apply andb_true_intro; split|].
    - now apply forallb_forall.
    - apply forallb_forall. intros T HT'. destruct (Forall2_In_r _ _ _ (l_tables _ _ _ _ L) T HT') as (g & Hg & Hf). apply forallb_forall. intros c Hc. apply mem_in.
      rewrite (tform_columns idx g T Hf); [apply in_or_app; auto|]. intros v Hv. now apply (group_names gs tables places _ g v L).
    - apply forallb_forall. intros c Hc. unfold pick in Hc. apply in_map_iff in Hc as ([p i] & <- & Hc). cbn [fst snd].
      assert (placed_in gs p i) as (g & Eg & Hp). { pose proof (l_places _ _ _ _ L) as HP. clear - HP Hc. induction HP as [|p0 i0 c l H0 HP IH]; [destruct Hc|]. destruct Hc as [E|Hc]; [injection E as <- <-; exact H0|auto]. }
      destruct (forall2_nth _ _ _ _ _ (l_tables _ _ _ _ L) Eg) as (T & ET & Hf). rewrite ET. apply mem_in. apply nth_error_In in Eg. rewrite (tform_columns idx g T Hf); [apply in_or_app; right; now apply in_map|]. intros v Hv. now apply (group_names gs tables places _ g v L).
  Qed.

  (** ** Rows *)
  Variables (parse : string -> cond) (srt : list okey -> list env -> list env) (t : stable) (Fs : list rframe).
  Hypothesis Hsrt : db_sorts srt.
  Definition fit (p : string * sqlq) (F : rframe) : Prop := inv parse srt t (snd p) idx (fst p) F /\ (idx = [] -> F <> []).
  Hypothesis Hfit : Forall2 fit ch Fs.

  Lemma table_keyed g T : tform idx g T -> g <> [] -> NoDup (List.map fst g) -> (forall v, In v (List.map fst g) -> ~ In v idx) -> (forall p, In p g -> exists F, fit p F) ->
    exists ks, keyed idx (run_table parse srt T t) ks /\ (idx = [] -> ks = [[]]) /\
      forall p F, In p g -> fit p F -> (forall k, In k ks <-> In k (List.map fst F)) /\ forall k, number (at_key idx k (run_table parse srt T t) (fst p)) = unf (lookup k F).
  Proof.
    intros HT Hg HN Hv HF. set (R := run_table parse srt T t).
    assert (forall p F, In p g -> fit p F -> Permutation (obs idx (fst p) R) (List.map enc F)) as HP.
    { intros [v q] F Hp [Hi _]. etransitivity; [apply (table_rows parse srt t idx Hsrt Hd g T HT HN Hv v q Hp)|apply Hi]. }
    assert (forall p F, In p g -> fit p F -> Permutation (List.map (labels idx) R) (List.map (List.map Some) (List.map fst F))) as HL.
    { intros p F Hp Hf. pose proof (Permutation_map fst (HP p F Hp Hf)) as H. unfold obs in H. rewrite !map_map in H. unfold enc in H. cbn [fst] in H. rewrite map_map. exact H. }
    destruct g as [|p0 g0] eqn:Eg; [contradiction|]. rewrite <- Eg in *. assert (In p0 g) as H0 by (rewrite Eg; now left). destruct (HF p0 H0) as [F0 Hf0].
    destruct (Permutation_map_inv _ _ (HL p0 F0 H0 Hf0)) as (ks & Eks & Pks). exists ks.
    assert (NoDup ks) as Nks. { eapply Permutation_NoDup; [exact Pks|]. apply Hf0. }
    assert (keyed idx R ks) as HK by (split; assumption). split; [exact HK|].
    assert (forall p F, In p g -> fit p F -> forall k, In k ks <-> In k (List.map fst F)) as HI.
    { intros p F Hp Hf k. pose proof (HL p F Hp Hf) as H. rewrite Eks in H. destruct (Permutation_map_inv _ _ H) as (ks' & E & P'). assert (ks = ks') as -> by (clear - E; revert ks' E; induction ks as [|a ks IH]; intros [|b ks'] E; try discriminate; [reflexivity|]; cbn in E; injection E as E1 E2; f_equal; [now apply some_inj|auto]).
      split; intros Hk; [now apply (Permutation_in _ (Permutation_sym P'))|now apply (Permutation_in _ P')]. }
    split.
    - intros E. assert (forall k, In k ks -> k = []) as Hz. { intros k Hk. apply (keyed_len idx R ks) in Hk; [|exact HK]. rewrite E in Hk. destruct k; [reflexivity|discriminate]. }
      destruct ks as [|k [|k' ks]].
      + exfalso. apply Permutation_sym, Permutation_nil, map_eq_nil in Pks. now apply Hf0.
      + f_equal. apply Hz. now left.
      + exfalso. inversion Nks as [|? ? H1 _]; subst. apply H1. left. rewrite (Hz k), (Hz k'); [reflexivity|right; now left|now left].
    - intros p F Hp Hf. split; [now apply (HI p)|]. intros k. destruct (in_dec (list_eq_dec string_dec) k ks) as [Y|Y].
      + destruct (at_in idx R ks k HK Y) as [A B]. assert (In (List.map Some k, number (at_key idx k R (fst p))) (List.map enc F)) as H.
        { apply (Permutation_in _ (HP p F Hp Hf)). unfold obs. apply in_map_iff. exists (at_key idx k R). split; [|exact A]. now rewrite <- B. }
        apply in_enc in H as (y & Hy & ->). f_equal. symmetry. apply lookup_In; [apply Hf|exact Hy].
      + rewrite (at_out idx R ks k HK Y). rewrite lookup_None; [reflexivity|]. intros Hk. apply Y. now apply (HI p F Hp Hf).
  Qed.
  Lemma finish rows U : Permutation (List.map (fun r => (labels idx r, List.map (fun v => number (r v)) (List.map fst ch))) rows) (List.map (fun k => (List.map Some k, List.map (fun F => unf (lookup k F)) Fs)) U) ->
    NoDup U -> (forall k, In k U <-> In k (flat_map (List.map fst) Fs)) ->
    Permutation (list_shown idx (List.map fst ch) rows) (List.map (fun kv => (List.map Some (fst kv), snd kv)) (concat_frames Fs)).
  Proof.
    intros HP HN HU.
    assert (Forall (fun F => Forall (fun r => no_inf (snd r)) F) Fs) as HI. { clear - Hfit. induction Hfit as [|p F c l [H _] HF IH]; constructor; [apply H|auto]. }
    apply (Permutation_map (fun kv => (fst kv, List.map fetch (snd kv)))) in HP. rewrite !map_map in HP. cbn [fst snd] in HP.
    unfold list_shown. erewrite map_ext; [etransitivity; [exact HP|]|intros r; cbn beta; rewrite !map_map; reflexivity].
    unfold concat_frames. rewrite map_map. cbn [fst snd].
    transitivity (List.map (fun k => (List.map Some k, List.map (lookup k) Fs)) U).
    { erewrite map_ext; [apply Permutation_refl|]. intros k. cbn beta. f_equal. rewrite map_map. apply map_ext_in. intros F HF. apply fetch_unf, lookup_no_inf. rewrite Forall_forall in HI. auto. }
    apply Permutation_map, NoDup_Permutation; [exact HN|apply NoDup_nodup|]. intros k. rewrite nodup_In. apply HU.
  Qed.
  Lemma child_fit p : In p ch -> exists F, In F Fs /\ fit p F. Proof. now apply forall2_in. Qed.

  Lemma query_rows : Permutation (list_shown idx (List.map fst ch) (run_list parse srt (list_query idx (List.map snd ch)) t)) (List.map (fun kv => (List.map Some (fst kv), snd kv)) (concat_frames Fs)).
  Proof.
    destruct query_layout as (gs & tables & places & L).
    assert (forall g p, In g gs -> In p g -> In p ch) as Hch by (intros g p Hg Hp; apply (Permutation_in _ (l_all _ _ _ _ L)), in_concat; eauto).
    assert (forall g T, In g gs -> tform idx g T -> exists ks, keyed idx (run_table parse srt T t) ks /\ (idx = [] -> ks = [[]]) /\
      forall p F, In p g -> fit p F -> (forall k, In k ks <-> In k (List.map fst F)) /\ forall k, number (at_key idx k (run_table parse srt T t) (fst p)) = unf (lookup k F)) as HT.
    { intros g T Hg Hf. apply (table_keyed g T); auto.
      - pose proof (l_groups _ _ _ _ L) as B. rewrite Forall_forall in B. auto.
      - now apply (group_nodup gs tables places _ g L).
      - intros v Hv. now apply (group_names gs tables places _ g v L).
      - intros p Hp. destruct (child_fit p (Hch g p Hg Hp)) as (F & _ & HF). eauto. }
    destruct (l_query _ _ _ _ L) as [(T & ET & EG & ->)| ->]; cbn [run_list].
    - destruct (HT ch T) as (ks & HK & _ & HV); [subst; now left|pose proof (l_tables _ _ _ _ L) as H; subst; now inversion H|].
      set (R := run_table parse srt T t) in *. apply (finish R ks).
      + rewrite (rows_at idx R ks HK) at 1. rewrite map_map. erewrite map_ext_in; [apply Permutation_refl|]. intros k Hk. cbn beta. destruct (at_in idx R ks k HK Hk) as [_ B]. rewrite B. f_equal.
        rewrite map_map. apply (forall2_map_eq fit); [exact Hfit|]. intros p F Hp HF Hf. now apply (HV p F).
      + apply HK.
      + intros k. rewrite in_flat_map. split.
        * intros Hk. destruct ch as [|p0 c0] eqn:Ec; [contradiction|]. destruct (forall2_in _ _ _ Hfit p0 (or_introl eq_refl)) as (F & HF & Hf). exists F. split; [exact HF|]. apply (HV p0 F); [now left|exact Hf|exact Hk].
        * intros (F & HF & Hk). destruct (Forall2_In_r _ _ _ Hfit F HF) as (p & Hp & Hf). now apply (HV p F).
    - assert (exists kss, all_keyed idx (List.map (fun q => run_table parse srt q t) tables) kss /\ (idx = [] -> Forall (fun ks => ks = [[]]) kss) /\
        Forall2 (fun g ks => forall p F, In p g -> fit p F -> forall k, In k ks <-> In k (List.map fst F)) gs kss) as (kss & HK & HZ & HKS).
      { pose proof (l_tables _ _ _ _ L) as H. clear - H HT. induction H as [|g T gs tables Hf H IH]; [exists []; repeat split; constructor|].
        destruct IH as (kss & A & B & C); [intros g' T' Hg'; apply HT; now right|]. destruct (HT g T (or_introl eq_refl) Hf) as (ks & A1 & B1 & C1). exists (ks :: kss). split; [now constructor|]. split; [intros E; constructor; auto|]. constructor; [|exact C]. intros p F Hp Hf'. now apply (C1 p F). }
      assert (tables <> []) as Htn. { intros ->. pose proof (l_tables _ _ _ _ L) as H. inversion H; subst. pose proof (l_all _ _ _ _ L) as H1. apply Permutation_nil in H1. contradiction. }
      destruct tables as [|T0 tables']; [contradiction|]. cbn [List.map] in HK |- *. set (tabs := run_table parse srt T0 t :: List.map (fun q => run_table parse srt q t) tables') in *.
      assert (exists U, Permutation (join_all idx 1 (List.map (fun r => [r]) (run_table parse srt T0 t)) (List.map (fun q => run_table parse srt q t) tables')) (List.map (at_all idx tabs) U) /\ (forall k, In k U <-> In k (List.concat kss)) /\ NoDup U) as (U & HJ & HU & HNU).
      { inversion HK as [|? ks0 ? kss' HK0 HK']; subst. change 1%nat with (List.length [run_table parse srt T0 t]).
        destruct (join_all_rows idx (List.map (fun q => run_table parse srt q t) tables') kss' [run_table parse srt T0 t] [ks0] (List.map (fun r => [r]) (run_table parse srt T0 t)) ks0) as (U & A & B & C).
        - constructor; [exact HK0|constructor].
        - exact HK'.
        - intros k. cbn. now rewrite app_nil_r.
        - apply HK0.
        - intros E. specialize (HZ E). inversion HZ; subst. auto.
        - rewrite (rows_at idx _ ks0 HK0) at 1. rewrite map_map. apply Permutation_refl.
        - exists U. auto. }
      apply (finish _ U).
      + etransitivity; [apply Permutation_map, Permutation_map, HJ|]. rewrite !map_map. erewrite map_ext_in; [apply Permutation_refl|]. intros k Hk. cbn beta. f_equal.
        * unfold labels. erewrite map_ext_in; [|intros c Hc; rewrite (proj2 (mem_in c idx) Hc); reflexivity]. rewrite (coal_at idx tabs kss) by exact HK. destruct (in_dec _ k (List.concat kss)) as [Y|Y]; [reflexivity|]. exfalso. apply Y. now apply HU.
        * rewrite map_map. apply (forall2_map_eq fit); [exact Hfit|]. intros p F Hp HF Hf.
          assert (~ In (fst p) idx) as Hv by (rewrite Forall_forall in Hgood; now apply Hgood). pose proof (proj2 (mem_false (fst p) idx) Hv) as Em. rewrite Em.
          assert (exists i, In (p, i) (combine ch places) /\ placed_in gs p i) as (i & Hi & g & Eg & Hp').
          { pose proof (l_places _ _ _ _ L) as HP. clear - HP Hp. induction HP as [|p0 i0 c l H0 HP IH]; [destruct Hp|]. destruct Hp as [->|Hp]; [exists i0; split; [now left|exact H0]|]. destruct (IH Hp) as (i & A & B). exists i. split; [now right|exact B]. }
          rewrite (assoc_In (fst p) (i, fst p)).
          -- destruct (forall2_nth _ _ _ _ _ (l_tables _ _ _ _ L) Eg) as (T & ET & HTf). destruct (HT g T (nth_error_In _ _ Eg) HTf) as (ks & _ & _ & HV). rewrite <- (proj2 (HV p F Hp' Hf) k). f_equal.
             assert (nth i (at_all idx tabs k) no_row = at_key idx k (run_table parse srt T t)) as En; [|now rewrite En]. unfold at_all, tabs. change (run_table parse srt T0 t :: List.map (fun q => run_table parse srt q t) tables') with (List.map (fun q => run_table parse srt q t) (T0 :: tables')). rewrite map_map.
             apply nth_error_nth. apply (map_nth_error (fun x => at_key idx k (run_table parse srt x t)) i (T0 :: tables') ET).
          -- rewrite pick_fst; [exact Hnames|]. symmetry. apply (forall2_len _ _ _ (l_places _ _ _ _ L)).
          -- unfold pick. apply in_map_iff. exists (p, i). auto.
      + exact HNU.
      + intros k. rewrite HU, in_concat, in_flat_map. split.
        * intros (ks & Hks & Hk). destruct (Forall2_In_r _ _ _ HKS ks Hks) as (g & Hg & Hgk). pose proof (l_groups _ _ _ _ L) as B. rewrite Forall_forall in B. specialize (B g Hg). destruct g as [|p g]; [contradiction|].
          destruct (child_fit p (Hch _ p Hg (or_introl eq_refl))) as (F & HF & Hf). exists F. split; [exact HF|]. apply (Hgk p F); auto. now left.
        * intros (F & HF & Hk). destruct (Forall2_In_r _ _ _ Hfit F HF) as (p & Hp & Hf). apply (Permutation_in _ (Permutation_sym (l_all _ _ _ _ L))) in Hp. apply in_concat in Hp as (g & Hg & Hp). destruct (forall2_in _ _ _ HKS g Hg) as (ks & Hks & Hgk). exists ks. split; [exact Hks|]. now apply (Hgk p F).
  Qed.
End Scope.

(** ** The list *)
Lemma list_good l by_ : supported_list l by_ ->
  let idx := by_ ++ list_extra l in let ch := List.map (fun m => (value_name m, child_sql l by_ m)) (ml_children l) in
  list_index l by_ = idx /\ NoDup idx /\ ch <> [] /\ Forall (good_child idx) ch /\ NoDup (List.map fst ch) /\ ForallOrdPairs (fun r p => ~ renamed (snd r) (snd p)) ch /\ (forall p, In p ch -> well_scoped (snd p) = true).
Proof.
  intros (Hne & Hsup & Hnames & Hren) idx ch.
  assert (NoDup idx) as Hd. { unfold idx, list_extra. destruct (ml_children l) as [|m ms]; [contradiction|]. apply nodup_index, Hsup. now left. }
  assert (list_index l by_ = idx) as Ei by (now apply add_cols_app).
  assert (forall m, In m (ml_children l) -> form idx (value_name m) (running m) (child_sql l by_ m) /\ well_scoped (child_sql l by_ m) = true /\ ~ In (value_name m) idx) as Hm.
  { intros m Hm. destruct (Hsup m Hm) as [Hs He]. unfold child_sql. cbn zeta. rewrite Ei. unfold idx. rewrite <- He.
    destruct (tree_ok (get_global_filter (mfilter_tree l)) m (remove (add (add [] (ml_where l)) []) (get_global_filter (mfilter_tree l))) by_ Hs). split; [assumption|]. split; [assumption|]. destruct m; apply Hs. }
  split; [exact Ei|]. split; [exact Hd|]. split; [unfold ch; destruct (ml_children l); [contradiction|discriminate]|]. split; [|split; [|split]].
  - apply Forall_forall. intros p Hp. apply in_map_iff in Hp as (m & <- & Hm'). destruct (Hm m Hm') as (A & _ & B). split; [exists (running m); exact A|exact B].
  - unfold ch. rewrite map_map. exact Hnames.
  - unfold ch. clear - Hren. induction Hren as [|m ms H HF IH]; [constructor|]. cbn. constructor; [|exact IH]. rewrite Forall_forall in *. intros p Hp. apply in_map_iff in Hp as (m' & <- & Hm'). cbn. auto.
  - intros p Hp. apply in_map_iff in Hp as (m & <- & Hm'). now apply Hm.
Qed.
Lemma list_query_children l by_ : list_to_sql l by_ = list_query (list_index l by_) (List.map snd (List.map (fun m => (value_name m, child_sql l by_ m)) (ml_children l))).
Proof. unfold list_to_sql. rewrite map_map. reflexivity. Qed.
Lemma list_well_formed l by_ : supported_list l by_ -> list_scoped (list_to_sql l by_) = true /\ list_columns (list_to_sql l by_) = by_ ++ list_extra l ++ List.map value_name (ml_children l).
Proof.
  intros H. destruct (list_good l by_ H) as (Ei & Hd & Hne & Hg & Hn & Hr & Hs). rewrite list_query_children, Ei. split; [now apply query_scoped|]. rewrite query_columns by assumption. rewrite map_map, <- app_assoc. reflexivity.
Qed.

Lemma children_results parse srt psort t l by_ : db_sorts srt -> pandas_sorts psort -> supported_list l by_ -> list_leaves_fit parse l by_ t -> list_fits parse psort l by_ (pandas_table t) ->
  forall m, In m (ml_children l) -> exists F, op_compute parse psort m by_ (filter (pfilters parse (ml_where l)) (pandas_table t)) = Some F /\
    inv parse srt t (child_sql l by_ m) (by_ ++ list_extra l) (value_name m) F /\ (by_ ++ list_extra l = [] -> F <> []).
Proof.
  intros H1 H2 H3 H4 H5 m Hm. pose proof H3 as (Hne & Hsup & _). destruct (Hsup m Hm) as [Hs He]. destruct (list_good l by_ H3) as (Ei & _).
  unfold child_sql. cbn zeta. rewrite Ei. rewrite <- He. set (glob := get_global_filter (mfilter_tree l)) in *.
  apply (tree_step parse srt psort t H1 H2 glob m by_ (ml_where l) (remove (add (add [] (ml_where l)) []) glob)); auto.
  - intros b fs lc by' Hb. now apply (H4 m Hm).
  - pose proof (nonempty_above parse t glob m by_ (ml_where l) (remove (add (add [] (ml_where l)) []) glob)) as Hw.
    assert (~ In "" (ml_where l)) as Hw' by (apply Hw; intros b fs lc by' Hb; now apply (H4 m Hm)).
    split; [|split].
    + intros H. apply remove_in in H as [H _]. revert H. apply add_nonempty, add_nonempty. intros [].
    + intros r Hr. rewrite spass_step; auto. cbn. now rewrite andb_true_r.
    + intros p Hp. assert (In p (paths [] (mfilter_tree l))) as Hp'.
      { unfold mfilter_tree. destruct (ml_children l) as [|c cs] eqn:Ec; [destruct Hm|]. cbn [List.map paths app]. apply in_flat_map. exists (ofilter_tree m). split; [|exact Hp]. change (ofilter_tree c :: List.map ofilter_tree cs) with (List.map ofilter_tree (c :: cs)). now apply in_map. }
      intros f Hf. apply (global_in_paths _ _ _ f) in Hp'; auto. intros ->. now apply nonempty_global in Hf.
Qed.
Theorem whole_list parse srt psort t l by_ : db_sorts srt -> pandas_sorts psort -> supported_list l by_ -> list_leaves_fit parse l by_ t -> list_fits parse psort l by_ (pandas_table t) ->
  exists rows, list_compute parse psort l by_ (pandas_table t) = (List.map value_name (ml_children l), rows) /\
    Permutation (list_shown (by_ ++ list_extra l) (List.map value_name (ml_children l)) (run_list parse srt (list_to_sql l by_) t)) (List.map (fun kv => (List.map Some (fst kv), snd kv)) rows).
Proof.
  intros H1 H2 H3 H4 H5. pose proof (children_results parse srt psort t l by_ H1 H2 H3 H4 H5) as HC. destruct (list_good l by_ H3) as (Ei & Hd & Hne & Hg & Hn & Hr & Hs).
  set (idx := by_ ++ list_extra l) in *. set (ch := List.map (fun m => (value_name m, child_sql l by_ m)) (ml_children l)) in *.
  assert (exists Fs, Forall2 (fit idx parse srt t) ch Fs /\
    flat_map (fun m => match op_compute parse psort m by_ (filter (pfilters parse (ml_where l)) (pandas_table t)) with Some fr => [(value_name m, fr)] | None => [] end) (ml_children l) = combine (List.map value_name (ml_children l)) Fs /\ List.length Fs = List.length (ml_children l)) as (Fs & A & B & C).
  { unfold ch.
    assert (forall ms, incl ms (ml_children l) -> exists Fs, Forall2 (fit idx parse srt t) (List.map (fun m => (value_name m, child_sql l by_ m)) ms) Fs /\
    flat_map (fun m => match op_compute parse psort m by_ (filter (pfilters parse (ml_where l)) (pandas_table t)) with Some fr => [(value_name m, fr)] | None => [] end) ms = combine (List.map value_name ms) Fs /\ List.length Fs = List.length ms) as HH.
    { clear - HC. induction ms as [|m ms IH]; intros Hi; [exists []; repeat split; constructor|]. destruct IH as (Fs & A & B & C); [intros z Hz; apply Hi; now right|]. destruct (HC m (Hi m (or_introl eq_refl))) as (F & EF & HF & HN).
      exists (F :: Fs). split; [constructor; [split; assumption|exact A]|]. split; [cbn; rewrite EF, B; reflexivity|cbn; congruence]. }
    apply HH. intros z; auto. }
  exists (concat_frames Fs). split.
  - unfold list_compute. cbn zeta. rewrite B. f_equal; [|f_equal].
    + clear - C. revert Fs C. generalize (ml_children l) as ms. induction ms as [|m ms IH]; intros [|F Fs] C; try discriminate; [reflexivity|]. cbn. f_equal. apply IH. now injection C.
    + clear - C. revert Fs C. generalize (ml_children l) as ms. induction ms as [|m ms IH]; intros [|F Fs] C; try discriminate; [reflexivity|]. cbn. f_equal. apply IH. now injection C.
  - rewrite list_query_children, Ei. fold ch. replace (List.map value_name (ml_children l)) with (List.map fst ch) by (unfold ch; now rewrite map_map). now apply query_rows.
Qed.

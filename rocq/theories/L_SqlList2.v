(** The tables of a MetricList joined on the index, and the whole list. *)
From Coq Require Import Reals List Bool String Arith Permutation Sorted Lia Lra.
From Verif Require Import M_Num M_Frame L_Frame M_Ops S_Ops L_OpsA L_OpsB L_OpsC M_SqlGlobal S_SqlGlobal L_SqlGlobal M_SqlLeaf S_SqlLeaf L_SqlLeaf L_SqlLeaf2 M_SqlOps S_SqlOps L_SqlOps L_SqlOps2 L_SqlOps3 L_SqlOps4 L_SqlOps5 L_SqlOps6 L_SqlBin L_SqlBin2 L_SqlBin3 L_SqlScope L_SqlOps7 M_SqlList S_SqlList L_SqlList.
Import ListNotations.
Open Scope string_scope.
Open Scope list_scope.

(** ** Where the children go *)
Section Put.
  Variable idx : list string.
  Definition good_child (p : string * sqlq) : Prop := (exists run, form idx (fst p) run (snd p)) /\ ~ In (fst p) idx.
  (** [done]: the children so far; [gs]: those of each table; [places]: of each child *)
  Definition placed_in (gs : list (list (string * sqlq))) (p : string * sqlq) (i : nat) : Prop := exists g, nth_error gs i = Some g /\ In p g.
  Lemma put_step ts : forall gs p, Forall2 (tform idx) gs ts -> Forall (fun g => g <> []) gs -> good_child p -> ~ In (fst p) (List.map fst (List.concat gs)) ->
    (forall r, In r (List.concat gs) -> ~ renamed (snd r) (snd p)) ->
    exists gs', Forall2 (tform idx) gs' (fst (put ts (table_of (snd p)))) /\ Forall (fun g => g <> []) gs' /\ Permutation (List.concat gs') (List.concat gs ++ [p]) /\
      placed_in gs' p (snd (put ts (table_of (snd p)))) /\ (forall r i, placed_in gs r i -> placed_in gs' r i) /\
      (List.length gs <= List.length gs')%nat /\ ((List.length gs' <= 1)%nat -> List.concat gs' = List.concat gs ++ [p]).
  Proof.
    induction ts as [|T ts IH]; intros gs p HF Hne Hp Hfresh Hren.
    - inversion HF; subst. exists [[p]]. cbn. destruct Hp as [[run Hf] Hv]. split; [constructor; [|constructor]; destruct p as [v q]; now apply (tform_one idx v run)|]. split; [repeat constructor; discriminate|]. split; [apply Permutation_refl|].
      split; [exists [p]; split; [reflexivity|now left]|]. split; [intros r [|i] (g & E & _); discriminate|]. auto.
    - destruct gs as [|g gs]; [inversion HF|]. inversion HF as [|? ? ? ? HT HF']; subst. inversion Hne as [|? ? Hg Hne']; subst. cbn [put].
      cbn [List.concat] in Hfresh, Hren. destruct (merge T (table_of (snd p))) as [T'|] eqn:EM.
      + exists ((g ++ [p]) :: gs). cbn [fst snd]. split.
        { constructor; [|assumption]. destruct Hp as [[run Hf] Hv]. destruct p as [v q]. apply (merge_tform idx g T v run q T'); auto.
          - intros H. apply Hfresh. rewrite map_app. apply in_or_app. auto.
          - intros r Hr. apply Hren, in_or_app. auto. }
        split; [constructor; [destruct g; discriminate|assumption]|]. cbn [List.concat]. split; [rewrite <- !app_assoc; apply Permutation_app_head, Permutation_app_comm|].
        split; [exists (g ++ [p]); split; [reflexivity|apply in_or_app; right; now left]|]. split.
        { intros r [|i] (h & E & Hr); cbn in E; [injection E as <-; exists (g ++ [p]); split; [reflexivity|apply in_or_app; auto]|exists h; auto]. }
        split; [cbn; lia|]. intros Hl. destruct gs; [|cbn in Hl; lia]. cbn. rewrite !app_nil_r. reflexivity.
      + destruct (IH gs p HF' Hne' Hp) as (gs' & A & B & C & D & E & F & G).
        { intros H. apply Hfresh. rewrite map_app. apply in_or_app. auto. }
        { intros r Hr. apply Hren, in_or_app. auto. }
        destruct (put ts (table_of (snd p))) as [us i]. cbn [fst snd] in *. exists (g :: gs'). split; [now constructor|]. split; [now constructor|]. cbn [List.concat]. split; [rewrite <- app_assoc; now apply Permutation_app_head|].
        split; [destruct D as (h & D1 & D2); exists h; auto|]. split.
        { intros r [|j] (h & Eh & Hr); cbn in Eh; [injection Eh as <-; exists g; auto|]. destruct (E r j) as (h' & E1 & E2); [exists h; auto|]. exists h'. auto. }
        split; [cbn; lia|]. cbn [List.length]. intros Hl. exfalso. destruct gs'; [|cbn in Hl; lia]. destruct D as (h & D1 & _). destruct i; discriminate.
  Qed.
  Lemma put_all_step ps : forall ts gs, Forall2 (tform idx) gs ts -> Forall (fun g => g <> []) gs -> Forall good_child ps ->
    NoDup (List.map fst (List.concat gs ++ ps)) -> (forall r p, In r (List.concat gs) -> In p ps -> ~ renamed (snd r) (snd p)) -> ForallOrdPairs (fun r p => ~ renamed (snd r) (snd p)) ps ->
    exists gs', Forall2 (tform idx) gs' (fst (put_all ts (List.map (fun p => table_of (snd p)) ps))) /\ Forall (fun g => g <> []) gs' /\ Permutation (List.concat gs') (List.concat gs ++ ps) /\
      Forall2 (placed_in gs') ps (snd (put_all ts (List.map (fun p => table_of (snd p)) ps))) /\ (forall r i, placed_in gs r i -> placed_in gs' r i) /\
      (List.length gs <= List.length gs')%nat /\ ((List.length gs' <= 1)%nat -> List.concat gs' = List.concat gs ++ ps).
  Proof.
    induction ps as [|p ps IH]; intros ts gs HF Hne Hp Hnd Hren Hord.
    - exists gs. cbn. rewrite app_nil_r. repeat (split; [auto|]). auto.
    - inversion Hp as [|? ? Hp1 Hps]; subst. inversion Hord as [|? ? Ho1 Ho2]; subst.
      assert (NoDup (List.map fst (p :: List.concat gs ++ ps))) as Hnd'. { eapply Permutation_NoDup; [|exact Hnd]. apply Permutation_map, Permutation_sym, Permutation_middle. }
      destruct (put_step ts gs p HF Hne Hp1) as (gs1 & A & B & C & D & E & F & G).
      { cbn in Hnd'. inversion Hnd' as [|? ? Hx _]; subst. intros H. apply Hx. rewrite map_app. apply in_or_app. auto. }
      { intros r Hr. apply Hren; [exact Hr|now left]. }
      cbn [List.map put_all]. destruct (put ts (table_of (snd p))) as [ts1 i]. cbn [fst snd] in *.
      destruct (IH ts1 gs1 A B Hps) as (gs2 & A2 & B2 & C2 & D2 & E2 & F2 & G2).
      { eapply Permutation_NoDup; [|exact Hnd]. apply Permutation_map. transitivity ((List.concat gs ++ [p]) ++ ps); [rewrite <- app_assoc; apply Permutation_refl|]. apply Permutation_app_tail. now apply Permutation_sym. }
      { intros r p' Hr Hp'. apply (Permutation_in _ C) in Hr. apply in_app_or in Hr as [Hr|[<-|[]]]; [apply Hren; [exact Hr|now right]|]. rewrite Forall_forall in Ho1. auto. }
      { exact Ho2. }
      destruct (put_all ts1 (List.map (fun p => table_of (snd p)) ps)) as [us is_]. cbn [fst snd] in *.
      exists gs2. split; [exact A2|]. split; [exact B2|]. split.
      { etransitivity; [exact C2|]. transitivity ((List.concat gs ++ [p]) ++ ps); [now apply Permutation_app_tail|rewrite <- app_assoc; apply Permutation_refl]. }
      split; [constructor; [now apply E2|exact D2]|]. split; [auto|]. split; [lia|].
      intros Hl. rewrite G2 by exact Hl. rewrite G by lia. now rewrite <- app_assoc.
  Qed.
End Put.

(** ** Rows by key *)
Lemma label_some (r : row) : forall k l c, List.map (fun c => label (r c)) l = List.map Some k -> In c l -> exists s, label (r c) = Some s.
Proof. intros k l. revert k. induction l as [|i l IH]; intros [|s k] c E Hc; try discriminate; [destruct Hc..|]. cbn in E. injection E as E1 E2. destruct Hc as [<-|Hc]; eauto. Qed.
Lemma filter_map_swap {A B} (f : A -> B) p l : filter p (List.map f l) = List.map f (filter (fun a => p (f a)) l).
Proof. induction l as [|a l IH]; [reflexivity|]. cbn. rewrite IH. now destruct (p (f a)). Qed.
Section Keys.
  Variable idx : list string.
  Definition labels (r : row) : skey := List.map (fun c => label (r c)) idx.
  Definition has (k : list string) (r : row) : bool := if skey_dec (labels r) (List.map Some k) then true else false.
  Definition at_key (k : list string) (rows : list row) : row := match find (has k) rows with Some r => r | None => no_row end.
  (** [rows] have the labels [ks], each once *)
  Definition keyed (rows : list row) (ks : list (list string)) : Prop := List.map labels rows = List.map (List.map Some) ks /\ NoDup ks.

  Lemma has_spec k r : has k r = true <-> labels r = List.map Some k.
  Proof. unfold has. destruct (skey_dec _ _); split; intros; congruence. Qed.
  Lemma find_keyed rows : forall ks k r, keyed rows ks -> In r rows -> labels r = List.map Some k -> find (has k) rows = Some r.
  Proof.
    induction rows as [|r0 rows IH]; intros [|k0 ks] k r [E N] Hr Hk; try discriminate; [destruct Hr|]. cbn in E. injection E as E0 E. inversion N as [|? ? N1 N2]; subst. cbn [find]. destruct Hr as [->|Hr].
    - rewrite (proj2 (has_spec k r) Hk). reflexivity.
    - destruct (has k r0) eqn:Eh; [|apply (IH ks); auto; now split]. exfalso. apply has_spec in Eh. rewrite E0 in Eh. apply some_inj in Eh. subst k0. apply N1.
      assert (In (List.map Some k) (List.map (List.map (@Some string)) ks)) as H by (rewrite <- E, <- Hk; now apply in_map). apply in_map_iff in H as (k' & Ek & H). apply some_inj in Ek. congruence.
  Qed.
  Lemma keyed_in rows ks k : keyed rows ks -> In k ks -> exists r, In r rows /\ labels r = List.map Some k.
  Proof. intros [E _] H. apply (in_map (List.map (@Some string))) in H. rewrite <- E in H. apply in_map_iff in H as (r & Er & Hr). eauto. Qed.
  Lemma keyed_row rows ks r : keyed rows ks -> In r rows -> exists k, In k ks /\ labels r = List.map Some k.
  Proof. intros [E _] H. apply (in_map labels) in H. rewrite E in H. apply in_map_iff in H as (k & Ek & Hk). eauto. Qed.
  Lemma at_in rows ks k : keyed rows ks -> In k ks -> In (at_key k rows) rows /\ labels (at_key k rows) = List.map Some k.
  Proof. intros HK H. destruct (keyed_in _ _ _ HK H) as (r & Hr & Er). unfold at_key. rewrite (find_keyed rows ks k r); auto. Qed.
  Lemma at_out rows ks k : keyed rows ks -> ~ In k ks -> at_key k rows = no_row.
  Proof.
    intros HK H. unfold at_key. destruct (find (has k) rows) as [r|] eqn:E; [|reflexivity]. apply find_some in E as [Hr Eh]. apply has_spec in Eh. destruct (keyed_row _ _ _ HK Hr) as (k' & Hk' & E). exfalso. apply H. rewrite E in Eh. apply some_inj in Eh. congruence.
  Qed.
  Lemma rows_at rows ks : keyed rows ks -> rows = List.map (fun k => at_key k rows) ks.
  Proof.
    intros HK. pose proof HK as [E N]. assert (forall rs ls, List.map labels rs = List.map (List.map (@Some string)) ls -> incl rs rows -> rs = List.map (fun k => at_key k rows) ls) as H.
    { induction rs as [|r rs IH]; intros [|k ls] El Hi; try discriminate; [reflexivity|]. cbn in El. injection El as E1 E2. cbn. f_equal; [|apply IH; [exact E2|intros z Hz; apply Hi; now right]].
      unfold at_key. rewrite (find_keyed rows ks k r); auto. apply Hi. now left. }
    apply H; [exact E|intros z; auto].
  Qed.

  (** what is joined, at key k *)
  Definition at_all (tabs : list (list row)) (k : list string) : list row := List.map (at_key k) tabs.
  Definition all_keyed (tabs : list (list row)) (kss : list (list (list string))) : Prop := Forall2 keyed tabs kss.
  Lemma coal_at tabs kss k : all_keyed tabs kss -> List.map (fun c => label (coal (at_all tabs k) c)) idx = if in_dec (list_eq_dec string_dec) k (List.concat kss) then List.map Some k else List.map (fun _ => None) idx.
  Proof.
    intros H. induction H as [|rows ks tabs kss HK H IH]; [reflexivity|]. cbn [at_all List.map coal List.concat].
    assert (at_key k rows = no_row \/ labels (at_key k rows) = List.map Some k) as HC.
    { destruct (in_dec (list_eq_dec string_dec) k ks) as [Y|Y]; [right; now apply (at_in rows ks)|left; now apply (at_out rows ks)]. }
    destruct (in_dec (list_eq_dec string_dec) k ks) as [Y|Y].
    - destruct (at_in rows ks k HK Y) as [_ E]. destruct (in_dec _ k (ks ++ _)) as [Z|Z]; [|exfalso; apply Z, in_or_app; auto].
      rewrite <- E. unfold labels. assert (List.length k = List.length idx) as Hl. { apply (f_equal (@List.length _)) in E. unfold labels in E. now rewrite !map_length in E. }
      apply map_ext_in. intros c Hc.
      assert (exists s, label (at_key k rows c) = Some s) as [s Es].
      { now apply (label_some (at_key k rows) k idx). }
      destruct (at_key k rows c) as [s0|x|l|]; try discriminate. reflexivity.
    - rewrite (at_out rows ks k HK Y). cbn [no_row coalesce]. etransitivity; [exact IH|]. destruct (in_dec _ k (List.concat kss)) as [Z|Z]; destruct (in_dec _ k (ks ++ List.concat kss)) as [Z'|Z']; try reflexivity.
      + exfalso. apply Z', in_or_app. auto.
      + exfalso. apply in_app_or in Z' as [Z'|Z']; auto.
  Qed.
  Lemma match_at tabs kss k r k' : all_keyed tabs kss -> labels r = List.map Some k' -> In k (List.concat kss) -> List.length k = List.length idx -> match_using idx (coal (at_all tabs k)) r = key_eqb k k'.
  Proof.
    intros H Hr Hk Hl. rewrite match_using_mk, (coal_at tabs kss) by assumption. destruct (in_dec _ k _) as [_|N]; [|contradiction]. fold (labels r). rewrite Hr. apply mk_some.
    rewrite Hl. apply (f_equal (@List.length _)) in Hr. unfold labels in Hr. rewrite !map_length in Hr. exact Hr.
  Qed.
  Lemma keyed_len rows ks k : keyed rows ks -> In k ks -> List.length k = List.length idx.
  Proof. intros HK H. destruct (keyed_in _ _ _ HK H) as (r & _ & E). apply (f_equal (@List.length _)) in E. unfold labels in E. now rewrite !map_length in E. Qed.
  Lemma all_keyed_len tabs kss k : all_keyed tabs kss -> In k (List.concat kss) -> List.length k = List.length idx.
  Proof. intros H. induction H as [|rows ks tabs kss HK H IH]; [intros []|]. cbn. intros Hi. apply in_app_or in Hi as [Hi|Hi]; [now apply (keyed_len rows ks)|auto]. Qed.
  Lemma at_all_out tabs kss k : all_keyed tabs kss -> ~ In k (List.concat kss) -> at_all tabs k = repeat no_row (List.length tabs).
  Proof.
    intros H. induction H as [|rows ks tabs kss HK H IH]; [reflexivity|]. cbn. intros N. rewrite (at_out rows ks) by (auto; intros Hi; apply N, in_or_app; auto). f_equal. apply IH. intros Hi. apply N, in_or_app. auto.
  Qed.

  Lemma flat_split {A B} (f : A -> list B) (p : A -> bool) (h : A -> B) l : (forall a, In a l -> f a = if p a then [h a] else []) ->
    Permutation (flat_map f l ++ List.map h (filter (fun a => negb (p a)) l)) (List.map h l).
  Proof.
    induction l as [|a l IH]; intros H; [constructor|]. cbn. rewrite (H a (or_introl eq_refl)). specialize (IH (fun b Hb => H b (or_intror Hb))). destruct (p a); cbn; [now constructor|].
    etransitivity; [apply Permutation_sym, Permutation_middle|]. now constructor.
  Qed.
  Lemma filter_at rows ks k : keyed rows ks -> List.length k = List.length idx -> forall j : row -> bool, (forall r k', In r rows -> labels r = List.map Some k' -> j r = key_eqb k k') ->
    filter j rows = (if in_dec (list_eq_dec string_dec) k ks then [at_key k rows] else []) /\ existsb j rows = if in_dec (list_eq_dec string_dec) k ks then true else false.
  Proof.
    intros HK Hl j Hj. pose proof (rows_at rows ks HK) as ER.
    assert (forall ls, incl ls ks -> NoDup ls -> filter j (List.map (fun k => at_key k rows) ls) = if in_dec (list_eq_dec string_dec) k ls then [at_key k rows] else []) as HF.
    { induction ls as [|k0 ls IH]; intros Hi N; [reflexivity|]. inversion N as [|? ? N1 N2]; subst. cbn [List.map filter]. destruct (at_in rows ks k0 HK (Hi k0 (or_introl eq_refl))) as [A B].
      rewrite (Hj _ k0 A B), IH; [|intros z Hz; apply Hi; now right|assumption]. destruct (key_eqb k k0) eqn:E.
      - apply key_eqb_eq in E. subst k0. destruct (in_dec _ k ls) as [Y|Y]; [contradiction|]. destruct (in_dec _ k (k :: ls)) as [Z|Z]; [reflexivity|]. exfalso. apply Z. now left.
      - destruct (in_dec _ k ls) as [Y|Y]; destruct (in_dec _ k (k0 :: ls)) as [Z|Z]; try reflexivity; exfalso.
        + apply Z. now right.
        + destruct Z as [->|Z]; [|contradiction]. assert (key_eqb k k = true) as E2 by (now apply key_eqb_eq). congruence. }
    assert (filter j rows = if in_dec (list_eq_dec string_dec) k ks then [at_key k rows] else []) as E.
    { rewrite ER at 1. apply HF; [intros z; auto|apply HK]. }
    split; [exact E|]. destruct (in_dec _ k ks) as [Y|Y].
    - apply existsb_exists. assert (In (at_key k rows) (filter j rows)) as H by (rewrite E; now left). apply filter_In in H as [H1 H2]. eauto.
    - apply not_true_is_false. intros H. apply existsb_exists in H as (r & H1 & H2). assert (In r (filter j rows)) as H by (apply filter_In; auto). rewrite E in H. destruct H.
  Qed.

  (** one more table; [U]: the keys so far *)
  Lemma join_step tabs kss rows ks acc U : all_keyed tabs kss -> keyed rows ks -> (forall k, In k U <-> In k (List.concat kss)) -> NoDup U ->
    (idx = [] -> U = [[]] /\ ks = [[]]) -> Permutation acc (List.map (at_all tabs) U) ->
    exists U', Permutation (join_next idx (List.length tabs) acc rows) (List.map (at_all (tabs ++ [rows])) U') /\ (forall k, In k U' <-> In k (List.concat (kss ++ [ks]))) /\ NoDup U' /\ (idx = [] -> U' = [[]]).
  Proof.
    intros HT HK HU HN H0 HP. set (dec := list_eq_dec string_dec). set (new := filter (fun k => if in_dec dec k U then false else true) ks).
    exists (U ++ new).
    assert (forall k, at_all (tabs ++ [rows]) k = at_all tabs k ++ [at_key k rows]) as Eat by (intros k; unfold at_all; now rewrite map_app).
    assert (forall k, In k U -> List.length k = List.length idx) as Hlen by (intros k Hk; apply (all_keyed_len tabs kss); auto; now apply HU).
    assert (forall k, In k U -> filter (match_using idx (coal (at_all tabs k))) rows = (if in_dec dec k ks then [at_key k rows] else []) /\ existsb (match_using idx (coal (at_all tabs k))) rows = if in_dec dec k ks then true else false) as HM.
    { intros k Hk. apply (filter_at rows ks); auto. intros r k' Hr Er. apply (match_at tabs kss); auto. now apply HU. }
    assert (forall r k', In r rows -> labels r = List.map Some k' -> existsb (fun j => match_using idx (coal j) r) acc = if in_dec dec k' U then true else false) as HX.
    { intros r k' Hr Er. rewrite (existsb_perm _ _ _ HP), existsb_map. destruct (in_dec dec k' U) as [Y|Y].
      - apply existsb_exists. exists k'. split; [exact Y|]. rewrite (match_at tabs kss k' r k'); auto; [now apply key_eqb_eq|now apply HU].
      - apply not_true_is_false. intros H. apply existsb_exists in H as (k & Hk & H). rewrite (match_at tabs kss k r k') in H; auto; [|now apply HU]. apply key_eqb_eq in H. congruence. }
    split; [|split; [|split]].
    - unfold join_next.
      assert (Permutation (flat_map (fun j => List.map (fun r => j ++ [r]) (filter (match_using idx (coal j)) rows)) acc)
                          (flat_map (fun k => List.map (fun r => at_all tabs k ++ [r]) (filter (match_using idx (coal (at_all tabs k))) rows)) U)) as P1.
      { etransitivity; [apply Permutation_flat_map, HP|]. rewrite flat_map_concat_map, map_map, <- flat_map_concat_map. apply Permutation_refl. }
      assert (Permutation (filter (fun j => negb (existsb (match_using idx (coal j)) rows)) acc) (List.map (at_all tabs) (filter (fun k => negb (if in_dec dec k ks then true else false)) U))) as P2.
      { etransitivity; [apply filter_perm, HP|]. rewrite filter_map_swap. erewrite filter_ext_in; [apply Permutation_refl|]. intros k Hk. cbn beta. now rewrite (proj2 (HM k Hk)). }
      assert (filter (fun r => negb (existsb (fun j => match_using idx (coal j) r) acc)) rows = List.map (fun k => at_key k rows) new) as P3.
      { rewrite (rows_at rows ks HK) at 1. rewrite filter_map_swap. unfold new. f_equal. apply filter_ext_in. intros k Hk. destruct (at_in rows ks k HK Hk) as [A B]. rewrite (HX _ k A B). now destruct (in_dec dec k U). }
      rewrite map_app. destruct idx as [|c0 idx'] eqn:EI.
      + destruct (H0 eq_refl) as [EU EK]. assert (new = []) as En. { unfold new. rewrite EU, EK. cbn. now destruct (in_dec dec [] [[]]) as [_|N]; [|exfalso; apply N; now left]. }
        rewrite En. cbn [List.map]. apply Permutation_app_tail. etransitivity; [exact P1|]. rewrite EU in *. cbn [flat_map List.map]. rewrite (proj1 (HM [] (or_introl eq_refl))), EK. destruct (in_dec dec [] [[]]) as [_|N]; [|exfalso; apply N; now left].
        cbn. rewrite Eat. apply Permutation_refl.
      + rewrite <- EI in *. rewrite P3. rewrite app_assoc. apply Permutation_app.
        * etransitivity; [apply Permutation_app; [exact P1|apply Permutation_map, P2]|]. rewrite map_map.
          set (h := fun k => at_all (tabs ++ [rows]) k).
          assert (List.map (fun k => at_all tabs k ++ [no_row]) (filter (fun k => negb (if in_dec dec k ks then true else false)) U) = List.map h (filter (fun k => negb (if in_dec dec k ks then true else false)) U)) as ->.
          { apply map_ext_in. intros k Hk. apply filter_In in Hk as [_ Hk]. unfold h. rewrite Eat. destruct (in_dec dec k ks) as [Y|Y]; [discriminate|]. now rewrite (at_out rows ks). }
          apply (flat_split (fun k => List.map (fun r => at_all tabs k ++ [r]) (filter (match_using idx (coal (at_all tabs k))) rows)) (fun k => if in_dec dec k ks then true else false) h).
          intros k Hk. rewrite (proj1 (HM k Hk)). unfold h. rewrite Eat. now destruct (in_dec dec k ks).
        * rewrite map_map. erewrite map_ext_in; [apply Permutation_refl|]. intros k Hk. cbn beta. rewrite Eat. f_equal. apply filter_In in Hk as [_ Hk]. symmetry. apply (at_all_out tabs kss); auto. intros Hi. apply HU in Hi. now destruct (in_dec dec k U).
    - intros k. rewrite in_app_iff, concat_app, in_app_iff. cbn. rewrite app_nil_r. rewrite HU. unfold new. rewrite filter_In. split.
      + intros [H|[H _]]; auto.
      + intros [H|H]; [auto|]. destruct (in_dec dec k U) as [Y|Y]; [left; now apply HU|auto].
    - apply NoDup_app_disjoint; [exact HN|apply NoDup_filter, HK|]. intros k Hk H. apply filter_In in H as [_ H]. now destruct (in_dec dec k U).
    - intros E. destruct (H0 E) as [EU EK]. unfold new. rewrite EU, EK. cbn. now destruct (in_dec dec [] [[]]) as [_|N]; [|exfalso; apply N; now left].
  Qed.
  Lemma join_all_rows tabs' : forall kss' tabs kss acc U, all_keyed tabs kss -> all_keyed tabs' kss' -> (forall k, In k U <-> In k (List.concat kss)) -> NoDup U ->
    (idx = [] -> U = [[]] /\ Forall (fun ks => ks = [[]]) kss') -> Permutation acc (List.map (at_all tabs) U) ->
    exists U', Permutation (join_all idx (List.length tabs) acc tabs') (List.map (at_all (tabs ++ tabs')) U') /\ (forall k, In k U' <-> In k (List.concat (kss ++ kss'))) /\ NoDup U'.
  Proof.
    induction tabs' as [|rows tabs' IH]; intros kss' tabs kss acc U HT HT' HU HN H0 HP; inversion HT' as [|? ks ? kss1 HK HT1]; subst.
    - exists U. rewrite !app_nil_r. auto.
    - cbn [join_all]. destruct (join_step tabs kss rows ks acc U HT HK HU HN) as (U1 & P1 & U1s & N1 & Z1); [intros E; destruct (H0 E) as [A B]; inversion B; auto|exact HP|].
      destruct (IH kss1 (tabs ++ [rows]) (kss ++ [ks]) (join_next idx (List.length tabs) acc rows) U1) as (U2 & P2 & U2s & N2); auto.
      + apply Forall2_app; [exact HT|]. constructor; [exact HK|constructor].
      + intros E. split; [auto|]. destruct (H0 E) as [_ B]. now inversion B.
      + exists U2. rewrite <- app_assoc in P2, U2s. cbn [app] in P2, U2s. rewrite app_length in P2. cbn [List.length] in P2. rewrite Nat.add_1_r in P2. auto.
  Qed.
End Keys.

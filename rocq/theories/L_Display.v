From Coq Require Import String List Bool Reals Lra Lia Permutation ZArith.
From Verif Require Import M_Metric L_Hash M_Display S_Display.
Import ListNotations.
Open Scope list_scope.
Open Scope nat_scope.

(** ** One cell *)
Lemma gt0_fin r : gt0 (Fin r) = true <-> (0 < r)%R.
Proof. cbn. destruct (Rlt_dec 0 r); split; auto; discriminate. Qed.
Lemma lt0_fin r : lt0 (Fin r) = true <-> (r < 0)%R.
Proof. cbn. destruct (Rlt_dec r 0); split; auto; discriminate. Qed.
Definition class_of (flip : bool) (lo hi : num) : string :=
  if (gt0 lo && negb flip) || (lt0 hi && flip) then good
  else if (lt0 hi && negb flip) || (gt0 lo && flip) then bad else neutral.
Lemma prefix_div body c : shown_as c (div body c).
Proof.
  unfold shown_as, div, dq, quote.
  assert (forall a b, String.prefix a (a ++ b)%string = true) as P.
  { induction a as [|x a IH]; intros b; [destruct b; reflexivity|]. cbn. destruct (Ascii.ascii_dec x x); [apply IH|congruence]. }
  replace ("<div class=" ++ String (Ascii.ascii_of_nat 34) "" ++ c ++ String (Ascii.ascii_of_nat 34) "" ++ ">" ++ body ++ "</div>")%string
    with (("<div class=" ++ String (Ascii.ascii_of_nat 34) "" ++ c ++ String (Ascii.ascii_of_nat 34) "" ++ ">") ++ (body ++ "</div>"))%string; [apply P|].
  assert (A : forall a b d, ((a ++ b) ++ d = a ++ (b ++ d))%string) by (induction a as [|x a IH]; intros; cbn; [reflexivity|rewrite IH; reflexivity]).
  rewrite !A. reflexivity.
Qed.
Lemma cell_class fmt f flip hide x : isnull (q_ratio x) = false ->
  exists body, metric_cell fmt f flip hide x = div body (class_of flip (q_lower x) (q_upper x)).
Proof.
  intros H. unfold metric_cell, class_of. rewrite H.
  destruct ((gt0 (q_lower x) && negb flip) || (lt0 (q_upper x) && flip)); [eexists; reflexivity|].
  destruct ((lt0 (q_upper x) && negb flip) || (gt0 (q_lower x) && flip)); eexists; reflexivity.
Qed.
Lemma cell_plain fmt f flip hide x : isnull (q_ratio x) = true ->
  exists body, metric_cell fmt f flip hide x = div body neutral.
Proof. intros H. unfold metric_cell. rewrite H. eexists. reflexivity. Qed.
Lemma shown_unique body c c' : In c [good; bad; neutral] -> In c' [good; bad; neutral] -> shown_as c (div body c') -> c = c'.
Proof.
  intros H H'. cbn in H, H'. destruct H as [<-|[<-|[<-|[]]]], H' as [<-|[<-|[<-|[]]]]; intros E; try reflexivity; discriminate E.
Qed.
Lemma class_in flip lo hi : In (class_of flip lo hi) [good; bad; neutral].
Proof. unfold class_of. destruct (_ || _); [left; reflexivity|]. destruct (_ || _); cbn; auto. Qed.
Lemma shown_iff fmt f flip hide x c : isnull (q_ratio x) = false -> In c [good; bad; neutral] ->
  (shown_as c (metric_cell fmt f flip hide x) <-> class_of flip (q_lower x) (q_upper x) = c).
Proof.
  intros Hr Hc. destruct (cell_class fmt f flip hide x Hr) as [body ->]. split; intros H.
  - symmetry. exact (shown_unique body c _ Hc (class_in _ _ _) H).
  - subst c. apply prefix_div.
Qed.
Lemma above_iff lo hi : (lo <= hi)%R -> (above lo hi <-> (0 < lo)%R).
Proof. intros H. unfold above. split; [intros A; apply A; lra|intros A x B; lra]. Qed.
Lemma below_iff lo hi : (lo <= hi)%R -> (below lo hi <-> (hi < 0)%R).
Proof. intros H. unfold below. split; [intros A; apply A; lra|intros A x B; lra]. Qed.

(** ** Lists *)
Lemma key_eqb_eq a b : key_eqb a b = true <-> a = b.
Proof.
  unfold key_eqb. revert b. induction a as [|x a IH]; intros [|y b]; cbn; try (split; [discriminate|intros E; discriminate E]).
  - split; reflexivity.
  - specialize (IH b). rewrite andb_true_iff in *. rewrite andb_true_iff. rewrite cell_eqb_eq. split.
    + intros (H1 & -> & H2). f_equal. apply IH. auto.
    + intros E. injection E as -> ->. destruct IH as [_ IH]. destruct (IH eq_refl) as [A B]. auto.
Qed.
Lemma filter_In' {A} (f : A -> bool) x l : In x (filter f l) <-> In x l /\ f x = true.
Proof. apply filter_In. Qed.
Section Distinct.
  Context {A : Type} (eqb : A -> A -> bool) (Heq : forall a b, eqb a b = true <-> a = b).
  Lemma distinct_in x l : In x (distinct eqb l) <-> In x l.
  Proof.
    induction l as [|y l IH]; [reflexivity|]. cbn [distinct In]. rewrite filter_In, IH, negb_true_iff. split.
    - intros [H|[H _]]; auto.
    - intros [H|H]; [auto|]. destruct (eqb y x) eqn:E; [left; apply Heq, E|right; auto].
  Qed.
  Lemma distinct_nodup l : NoDup (distinct eqb l).
  Proof.
    induction l as [|y l IH]; [constructor|]. cbn [distinct]. constructor; [|apply NoDup_filter, IH].
    rewrite filter_In. intros [_ H]. rewrite (proj2 (Heq y y) eq_refl) in H. discriminate.
  Qed.
End Distinct.
Lemma sort_perm le l : Permutation (sort_keys le l) l.
Proof.
  induction l as [|k l IH]; [constructor|]. cbn [sort_keys fold_right].
  assert (P : forall x r, Permutation (insert_key le x r) (x :: r)).
  { intros x r. induction r as [|y r IHr]; [reflexivity|]. cbn. destruct (le x y); [reflexivity|]. rewrite IHr. apply perm_swap. }
  rewrite P. constructor. exact IH.
Qed.
Lemma unique_filter {A} (f : A -> bool) (l : list A) x :
  NoDup l -> In x l -> f x = true -> (forall y, In y l -> f y = true -> y = x) -> filter f l = [x].
Proof.
  induction l as [|y l IH]; intros Hn Hx Hf Hu; [destruct Hx|]. inversion Hn as [|? ? Hy Hl]; subst. cbn [filter].
  destruct Hx as [->|Hx].
  - rewrite Hf. f_equal. destruct (filter f l) as [|z r] eqn:E; [reflexivity|]. exfalso.
    assert (Hz : In z (filter f l)) by (rewrite E; left; reflexivity). apply filter_In in Hz. destruct Hz as [Hz Hfz].
    rewrite (Hu z (or_intror Hz) Hfz) in Hz. contradiction.
  - destruct (f y) eqn:E.
    + rewrite (Hu y (or_introl eq_refl) E) in Hy. contradiction.
    + apply IH; auto. intros z Hz. apply Hu. right. exact Hz.
Qed.
Lemma mean_one x : mean [x] = x.
Proof. destruct x as [|r]; [reflexivity|]. unfold mean. cbn. f_equal. lra. Qed.
Lemma mean_quad_one q : mean_quad [q] = q.
Proof. destruct q as [a b c d]. unfold mean_quad. cbn [map q_value q_ratio q_lower q_upper]. rewrite !mean_one. reflexivity. Qed.

(** ** The table *)
Section Table.
  Variables (fmt : string -> R -> string) (le : list cell -> list cell -> bool).
  Variables (has_exp : bool) (ctrl : control) (show_control show_value : bool) (rows : list lrow).
  Let ctrl' := if has_exp then ctrl else CtrlNone.
  Let vis := visible ctrl' show_control show_value rows.
  Let d := no_control_ids ctrl' vis.
  Let key (r : lrow) := row_key has_exp ctrl' d r.
  Let keyed := map (fun r => (key r, r)) vis.
  Definition sh (r : lrow) : lrow :=
    if show_control then
      (if is_control ctrl' (l_exp r)
       then LRow (l_dims r) (l_exp r) (l_metric r) (Quad (q_value (l_quad r)) NaN (q_lower (l_quad r)) (q_upper (l_quad r))) else r)
    else if show_value then r
    else LRow (l_dims r) (l_exp r) (l_metric r) (Quad NaN (q_ratio (l_quad r)) (q_lower (l_quad r)) (q_upper (l_quad r))).
  Hypothesis Hc : complete has_exp ctrl rows.
  Hypothesis Hu : NoDup (map (fun r => (ident has_exp r, l_metric r)) rows).

  Lemma sh_same r : l_dims (sh r) = l_dims r /\ l_exp (sh r) = l_exp r /\ l_metric (sh r) = l_metric r.
  Proof. unfold sh. destruct show_control; [destruct (is_control ctrl' (l_exp r))|destruct show_value]; auto. Qed.
  Lemma ctrl_true r : is_control ctrl' (l_exp r) = true <-> a_control has_exp ctrl r.
  Proof. unfold a_control, ctrl'. destruct has_exp; [tauto|]. cbn. split; [discriminate|intros [H _]; discriminate]. Qed.
  Lemma vis_in v : In v vis <-> exists r, In r rows /\ seen has_exp ctrl show_control r /\ v = sh r.
  Proof.
    unfold vis, visible, seen. destruct show_control eqn:S.
    - rewrite in_map_iff. split.
      + intros (r & E & H). exists r. split; [exact H|]. split; [auto|]. unfold sh. rewrite S. auto.
      + intros (r & H & _ & ->). exists r. split; [|exact H]. unfold sh. rewrite S. reflexivity.
    - rewrite in_map_iff. split.
      + intros (r & E & H). apply filter_In in H. destruct H as [H N]. exists r. split; [exact H|]. split.
        * right. rewrite <- ctrl_true. apply negb_true_iff in N. congruence.
        * unfold sh. rewrite S. auto.
      + intros (r & H & [X|N] & ->); [discriminate|]. exists r. split; [unfold sh; rewrite S; reflexivity|].
        apply filter_In. split; [exact H|]. apply negb_true_iff. rewrite <- ctrl_true in N. destruct (is_control ctrl' (l_exp r)); congruence.
  Qed.
  Lemma sh_numbers r : seen has_exp ctrl show_control r -> numbers has_exp ctrl show_control show_value r (l_quad (sh r)).
  Proof.
    intros Hs. unfold numbers. rewrite <- ctrl_true. unfold seen in Hs. rewrite <- ctrl_true in Hs.
    unfold sh. destruct show_control.
    - destruct (is_control ctrl' (l_exp r)); cbn; repeat split; auto; congruence.
    - destruct Hs as [Hs|Hs]; [discriminate|]. destruct show_value; cbn; repeat split; auto; congruence.
  Qed.
  Lemma vis_complete v : In v vis -> ~ In CNull (l_dims v) /\ (has_exp = true -> l_exp v <> CNull /\ (ctrl = CtrlNone \/ control_id ctrl (l_exp v) <> CNull)).
  Proof.
    intros H. apply vis_in in H. destruct H as (r & H & _ & ->). destruct (sh_same r) as (-> & -> & _). apply Hc, H.
  Qed.
  Lemma vis_length v v' : In v vis -> In v' vis -> List.length (l_dims v) = List.length (l_dims v').
  Proof.
    intros H H'. apply vis_in in H, H'. destruct H as (r & H & _ & ->), H' as (r' & H' & _ & ->).
    destruct (sh_same r) as (-> & _ & _). destruct (sh_same r') as (-> & _ & _). destruct Hc as [[n N] _]. rewrite (N r H), (N r' H'). reflexivity.
  Qed.
  Lemma null_key_false k : ~ In CNull k -> null_key k = false.
  Proof.
    intros H. unfold null_key. apply not_true_is_false. rewrite existsb_exists. intros (c & Hc' & E). destruct c; try discriminate. contradiction.
  Qed.
  Lemma key_ok v : In v vis -> null_key (key v) = false.
  Proof.
    intros H. destruct (vis_complete v H) as [H1 H2]. apply null_key_false. unfold key, row_key.
    rewrite in_app_iff. intros [X|X]; [contradiction|]. destruct has_exp eqn:E; [|destruct X]. destruct (H2 eq_refl) as [H3 H4].
    unfold ctrl' in *. destruct ctrl as [|c|dd] eqn:Ec.
    - destruct X as [X|[]]. congruence.
    - destruct H4 as [H4|H4]; [discriminate|]. apply in_app_iff in X. destruct X as [X|X].
      + destruct d; [destruct X|]. destruct X as [X|[]]. congruence.
      + destruct X as [X|[X|[]]]; [unfold cbool in X; discriminate|congruence].
    - destruct H4 as [H4|H4]; [discriminate|]. apply in_app_iff in X. destruct X as [X|X].
      + destruct d; [destruct X|]. destruct X as [X|[]]. congruence.
      + destruct X as [X|[X|[]]]; [unfold cbool in X; discriminate|congruence].
  Qed.
  Lemma ok_all : filter (fun p : list cell * lrow => negb (null_key (fst p))) keyed = keyed.
  Proof.
    unfold keyed. assert (H : forall l, incl l vis -> filter (fun p : list cell * lrow => negb (null_key (fst p))) (map (fun r => (key r, r)) l) = map (fun r => (key r, r)) l).
    { induction l as [|v l IH]; intros Hi; [reflexivity|]. cbn [map filter fst]. rewrite (key_ok v (Hi v (or_introl eq_refl))). cbn [negb].
      f_equal. apply IH. intros x Hx. apply Hi. right. exact Hx. }
    apply H, incl_refl.
  Qed.
  Lemma key_tail r : exists t, key r = l_dims r ++ t /\ (has_exp = true -> exists t', t = t' ++ [l_exp r]) /\ (has_exp = false -> t = []).
  Proof.
    unfold key, row_key, ctrl'. destruct has_exp; [|eexists; split; [reflexivity|]; split; [discriminate|reflexivity]].
    destruct ctrl as [|c|dd]; (eexists; split; [reflexivity|]; split; [intros _|discriminate]).
    - exists []. reflexivity.
    - eexists (_ ++ [_]). rewrite <- app_assoc. reflexivity.
    - eexists (_ ++ [_]). rewrite <- app_assoc. reflexivity.
  Qed.
  Lemma firstn_app_len {A} (a b : list A) : firstn (List.length a) (a ++ b) = a.
  Proof. rewrite firstn_app, Nat.sub_diag, firstn_all, firstn_O, app_nil_r. reflexivity. Qed.
  Lemma key_about r : about has_exp (key r) r.
  Proof.
    destruct (key_tail r) as (t & E & H1 & H2). unfold about. rewrite E. split; [apply firstn_app_len|].
    intros He. destruct (H1 He) as [t' ->]. rewrite app_assoc, last_last. reflexivity.
  Qed.
  Lemma about_ident k r r' : about has_exp k r -> about has_exp k r' -> List.length (l_dims r) = List.length (l_dims r') -> ident has_exp r = ident has_exp r'.
  Proof.
    intros [A1 A2] [B1 B2] L. unfold ident. rewrite L in A1. rewrite A1 in B1. f_equal; [exact B1|].
    destruct has_exp; [|reflexivity]. rewrite <- A2, <- B2; auto.
  Qed.
  Lemma ident_key r r' : ident has_exp r = ident has_exp r' -> key r = key r'.
  Proof.
    unfold ident, key, row_key. intros E. injection E as E1 E2. rewrite E1. f_equal. destruct has_exp; [rewrite E2|]; reflexivity.
  Qed.
  Lemma sh_ident r : ident has_exp (sh r) = ident has_exp r.
  Proof. unfold ident. destruct (sh_same r) as (-> & -> & _). reflexivity. Qed.
  Lemma nodup_inj {A B} (f : A -> B) l x y : NoDup (map f l) -> In x l -> In y l -> f x = f y -> x = y.
  Proof.
    induction l as [|z l IH]; intros Hn Hx Hy E; [destruct Hx|]. inversion Hn as [|? ? Hz Hl]; subst.
    destruct Hx as [->|Hx], Hy as [->|Hy]; auto.
    - exfalso. apply Hz. rewrite E. apply in_map, Hy.
    - exfalso. apply Hz. rewrite <- E. apply in_map, Hx.
  Qed.
  Lemma vis_inj v v' : In v vis -> In v' vis -> key v = key v' -> l_metric v = l_metric v' -> v = v'.
  Proof.
    intros H H' E M. assert (L := vis_length v v' H H').
    assert (I : ident has_exp v = ident has_exp v').
    { apply (about_ident (key v)); [apply key_about|rewrite E; apply key_about|exact L]. }
    apply vis_in in H, H'. destruct H as (r & H & _ & ->), H' as (r' & H' & _ & ->). f_equal.
    rewrite !sh_ident in I. destruct (sh_same r) as (_ & _ & M1). destruct (sh_same r') as (_ & _ & M2).
    apply (nodup_inj _ _ r r' Hu H H'). cbn beta. rewrite I, <- M1, <- M2, M. reflexivity.
  Qed.
  Lemma vis_nodup : NoDup vis.
  Proof.
    assert (N : NoDup rows) by exact (NoDup_map_inv _ _ Hu).
    unfold vis, visible. destruct show_control.
    - apply (NoDup_map_inv (fun r => (ident has_exp r, l_metric r))). rewrite map_map.
      rewrite (map_ext _ (fun r => (ident has_exp r, l_metric r))); [exact Hu|].
      intros r. destruct (is_control ctrl' (l_exp r)); reflexivity.
    - apply (NoDup_map_inv (fun r => (ident has_exp r, l_metric r))). rewrite map_map.
      rewrite (map_ext _ (fun r => (ident has_exp r, l_metric r))); [|intros r; destruct show_value; reflexivity].
      clear - Hu. induction rows as [|r l IH]; [constructor|]. cbn [map] in Hu. inversion Hu as [|? ? Hn Hl]; subst. cbn [filter].
      destruct (negb _); [|auto]. cbn [map]. constructor; [|auto].
      intros X. apply Hn. apply in_map_iff in X. destruct X as (y & E & Y). apply filter_In in Y. rewrite <- E. apply (in_map (fun r => (ident has_exp r, l_metric r))), Y.
  Qed.
  Let ms := distinct String.eqb (map (fun p : list cell * lrow => l_metric (snd p)) keyed).
  Lemma ms_in m : In m ms <-> exists v, In v vis /\ l_metric v = m.
  Proof.
    unfold ms. rewrite (distinct_in String.eqb String.eqb_eq), in_map_iff. unfold keyed. split.
    - intros (p & E & H). apply in_map_iff in H. destruct H as (v & <- & H). exists v. auto.
    - intros (v & H & E). exists (key v, v). split; [exact E|]. apply in_map_iff. exists v. auto.
  Qed.
  Definition cell_at (k : list cell) (m : string) : quad :=
    mean_quad (map (fun p : list cell * lrow => l_quad (snd p)) (filter (fun p => key_eqb (fst p) k && String.eqb (l_metric (snd p)) m) keyed)).
  Lemma cell_at_row v : In v vis -> cell_at (key v) (l_metric v) = l_quad v.
  Proof.
    intros H. unfold cell_at. rewrite (unique_filter _ keyed (key v, v)).
    - cbn [map snd]. apply mean_quad_one.
    - unfold keyed. apply (NoDup_map_inv snd). rewrite map_map. cbn [snd]. rewrite map_id. exact vis_nodup.
    - unfold keyed. apply in_map_iff. exists v. auto.
    - cbn [fst snd]. rewrite (proj2 (key_eqb_eq _ _) eq_refl), String.eqb_refl. reflexivity.
    - intros [k w] Hw E. unfold keyed in Hw. apply in_map_iff in Hw. destruct Hw as (w' & Ew & Hw). injection Ew as <- <-.
      cbn [fst snd] in E. apply andb_true_iff in E. destruct E as [E1 E2]. apply key_eqb_eq in E1. apply String.eqb_eq in E2.
      rewrite (vis_inj w' v Hw H E1 E2). reflexivity.
  Qed.
  Lemma cell_at_none k m : (forall v, In v vis -> key v = k -> l_metric v <> m) -> cell_at k m = Quad NaN NaN NaN NaN.
  Proof.
    intros H. unfold cell_at. replace (filter _ keyed) with (@nil (list cell * lrow)); [reflexivity|]. symmetry.
    destruct (filter _ keyed) as [|p r] eqn:E; [reflexivity|]. exfalso.
    assert (Hp : In p (filter (fun p => key_eqb (fst p) k && String.eqb (l_metric (snd p)) m) keyed)) by (rewrite E; left; reflexivity).
    apply filter_In in Hp. destruct Hp as [Hp F]. unfold keyed in Hp. apply in_map_iff in Hp. destruct Hp as (v & <- & Hv).
    cbn [fst snd] in F. apply andb_true_iff in F. destruct F as [F1 F2]. apply key_eqb_eq in F1. apply String.eqb_eq in F2. exact (H v Hv F1 F2).
  Qed.
  Variables (f : formats) (flip_color metric_order : list string) (hide : bool).
  Let out := formatted fmt le has_exp ctrl show_control show_value f flip_color metric_order hide rows.
  Definition html (m : string) (q : quad) : string := metric_cell fmt f (existsb (String.eqb m) flip_color) hide q.
  Let keys := sort_keys le (distinct key_eqb (map fst keyed)).
  Let cells (k : list cell) := rendered fmt f flip_color hide
     (let l := map (fun m => (m, cell_at k m)) ms in
      match metric_order with [] => l | _ => flat_map (fun m => filter (fun mq : string * quad => String.eqb (fst mq) m) l) metric_order end).
  Lemma out_eq : out = map (fun k => (k, cells k)) keys.
  Proof.
    transitivity (map (fun kq : list cell * list (string * quad) => (fst kq, rendered fmt f flip_color hide
           (match metric_order with
            | [] => snd kq
            | _ => flat_map (fun m => filter (fun mq => String.eqb (fst mq) m) (snd kq)) metric_order
            end))) (wide le keyed)); [reflexivity|].
    unfold wide. rewrite ok_all. cbv zeta. rewrite map_map. reflexivity.
  Qed.
  Lemma keys_in k : In k keys <-> exists v, In v vis /\ key v = k.
  Proof.
    unfold keys. rewrite (Permutation_in' (eq_refl k) (sort_perm le _)), (distinct_in key_eqb key_eqb_eq), in_map_iff. unfold keyed. split.
    - intros (p & E & H). apply in_map_iff in H. destruct H as (v & <- & H). exists v. auto.
    - intros (v & H & E). exists (key v, v). split; [exact E|]. apply in_map_iff. exists v. auto.
  Qed.
  Lemma keys_nodup : NoDup keys.
  Proof. unfold keys. apply (Permutation_NoDup (Permutation_sym (sort_perm le _))), distinct_nodup, key_eqb_eq. Qed.
  Lemma cells_in k m h : In (m, h) (cells k) <-> wanted metric_order m /\ In m ms /\ h = html m (cell_at k m).
  Proof.
    unfold cells, rendered. rewrite in_map_iff.
    assert (L : forall m q, In (m, q) (map (fun m => (m, cell_at k m)) ms) <-> In m ms /\ q = cell_at k m).
    { intros m0 q0. rewrite in_map_iff. split; [intros (x & E & H); injection E as <- <-; auto|intros [H ->]; exists m0; auto]. }
    unfold wanted, html. cbv zeta. destruct metric_order as [|m1 mo] eqn:E.
    - split.
      + intros ((m0, q0) & Eq & H). cbn [fst snd] in Eq. injection Eq as <- <-. apply L in H. destruct H as [H ->]. auto.
      + intros (_ & H & ->). exists (m, cell_at k m). split; [reflexivity|]. apply L. auto.
    - rewrite <- E in *. split.
      + intros ((m0, q0) & Eq & H). cbn [fst snd] in Eq. injection Eq as <- <-. apply in_flat_map in H. destruct H as (m2 & H2 & H).
        apply filter_In in H. destruct H as [H F]. cbn [fst] in F. apply String.eqb_eq in F. subst m2. apply L in H. destruct H as [H ->]. auto.
      + intros ([X|X] & H & ->); [congruence|]. exists (m, cell_at k m). split; [reflexivity|]. apply in_flat_map. exists m. split; [exact X|].
        apply filter_In. split; [apply L; auto|apply String.eqb_refl].
  Qed.

  Lemma table_row r : In r rows -> seen has_exp ctrl show_control r ->
    exists k cs q, In (k, cs) out /\ about has_exp k r
      /\ (forall k' cs', In (k', cs') out -> about has_exp k' r -> (k', cs') = (k, cs))
      /\ numbers has_exp ctrl show_control show_value r q
      /\ (forall h, In (l_metric r, h) cs <-> wanted metric_order (l_metric r) /\ h = html (l_metric r) q).
  Proof.
    intros Hr Hs. assert (Hv : In (sh r) vis) by (apply vis_in; exists r; auto).
    exists (key (sh r)), (cells (key (sh r))), (l_quad (sh r)). rewrite out_eq.
    assert (Hk : In (key (sh r)) keys) by (apply keys_in; exists (sh r); auto).
    assert (Ab : forall k, about has_exp k (sh r) <-> about has_exp k r).
    { intros k. unfold about. destruct (sh_same r) as (-> & -> & _). reflexivity. }
    split; [apply in_map_iff; exists (key (sh r)); auto|]. split; [apply Ab, key_about|]. split; [|split].
    - intros k' cs' H A. apply in_map_iff in H. destruct H as (k2 & E & H). injection E as <- <-.
      apply keys_in in H. destruct H as (v & H & <-). apply Ab in A.
      assert (I : ident has_exp v = ident has_exp (sh r)) by (apply (about_ident (key v)); [apply key_about|exact A|apply vis_length; assumption]).
      rewrite (ident_key _ _ I). reflexivity.
    - apply sh_numbers, Hs.
    - intros h. rewrite cells_in. destruct (sh_same r) as (_ & _ & M).
      assert (Em : cell_at (key (sh r)) (l_metric r) = l_quad (sh r)) by (rewrite <- M; apply cell_at_row, Hv).
      rewrite Em. split; [intros (A & _ & B); auto|intros (A & B); split; [exact A|]; split; [apply ms_in; exists (sh r); auto|exact B]].
  Qed.
  Lemma table_only k cs : In (k, cs) out ->
    (exists r, In r rows /\ seen has_exp ctrl show_control r /\ about has_exp k r) /\
    forall m h, In (m, h) cs -> wanted metric_order m /\
      ((exists r q, In r rows /\ seen has_exp ctrl show_control r /\ about has_exp k r /\ l_metric r = m
         /\ numbers has_exp ctrl show_control show_value r q /\ h = html m q)
       \/ ((forall r, In r rows -> seen has_exp ctrl show_control r -> about has_exp k r -> l_metric r <> m) /\ h = html m (Quad NaN NaN NaN NaN))).
  Proof.
    rewrite out_eq. intros H. apply in_map_iff in H. destruct H as (k2 & E & H). injection E as <- <-.
    apply keys_in in H. destruct H as (v & H & <-).
    assert (Ab : forall k r, about has_exp k (sh r) <-> about has_exp k r).
    { intros k r. unfold about. destruct (sh_same r) as (-> & -> & _). reflexivity. }
    assert (Av := key_about v). split.
    - apply vis_in in H. destruct H as (r & Hr & Hs & ->). exists r. split; [exact Hr|]. split; [exact Hs|]. apply Ab, Av.
    - intros m h Hm. apply cells_in in Hm. destruct Hm as (W & Hm & ->). split; [exact W|].
      destruct (existsb (fun w => key_eqb (key w) (key v) && String.eqb (l_metric w) m) vis) eqn:Ex.
      + left. apply existsb_exists in Ex. destruct Ex as (w & Hw & F). apply andb_true_iff in F. destruct F as [F1 F2].
        apply key_eqb_eq in F1. apply String.eqb_eq in F2. assert (Hw2 := Hw). apply vis_in in Hw2. destruct Hw2 as (r & Hr & Hs & E).
        exists r, (l_quad w). split; [exact Hr|]. split; [exact Hs|]. split; [rewrite <- F1; apply Ab; rewrite <- E; apply key_about|].
        destruct (sh_same r) as (_ & _ & M). split; [rewrite <- M, <- E; exact F2|]. split; [rewrite E; apply sh_numbers, Hs|].
        rewrite <- F1, <- F2, (cell_at_row w Hw). reflexivity.
      + right. split.
        * intros r Hr Hs A M. assert (Hv : In (sh r) vis) by (apply vis_in; exists r; auto). apply Ab in A.
          assert (I : ident has_exp v = ident has_exp (sh r)) by (apply (about_ident (key v)); [exact Av|exact A|apply vis_length; assumption]).
          apply not_true_iff_false in Ex. apply Ex. apply existsb_exists. exists (sh r). split; [exact Hv|].
          rewrite (ident_key _ _ I), (proj2 (key_eqb_eq _ _) eq_refl). destruct (sh_same r) as (_ & _ & M'). rewrite M', M, String.eqb_refl. reflexivity.
        * rewrite cell_at_none; [reflexivity|]. intros w Hw E M. apply not_true_iff_false in Ex. apply Ex. apply existsb_exists.
          exists w. split; [exact Hw|]. rewrite E, M, (proj2 (key_eqb_eq _ _) eq_refl), String.eqb_refl. reflexivity.
  Qed.
End Table.

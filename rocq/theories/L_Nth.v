From Coq Require Import List Bool ZArith Permutation Sorted Lia.
From Verif Require Import M_Nth.
Import ListNotations.
Open Scope list_scope.
Open Scope nat_scope.

Section L.
Context {A : Type}.
Variable R : A -> A -> Prop.
Lemma ssorted_app a b : StronglySorted R (a ++ b) <-> StronglySorted R a /\ StronglySorted R b /\ (forall x y, In x a -> In y b -> R x y).
Proof.
  induction a as [|x a IH]; cbn.
  - split; [intros H; repeat split; [constructor|exact H|intros x y []] | intros (_ & H & _); exact H].
  - split.
    + intros H. inversion H as [|? ? HS HF E1]; subst. apply IH in HS. destruct HS as (H1 & H2 & H3). rewrite Forall_app in HF. destruct HF as [F1 F2].
      repeat split; [now constructor|exact H2|]. intros y z [->|Hy] Hz; [rewrite Forall_forall in F2; now apply F2|now apply H3].
    + intros (H1 & H2 & H3). inversion H1 as [|? ? HS HF]; subst. constructor.
      * apply IH. repeat split; auto.
      * rewrite Forall_app. split; [exact HF|]. apply Forall_forall. intros y Hy. apply H3; auto.
Qed.
Lemma ssorted_filter f l : StronglySorted R l -> StronglySorted R (filter f l).
Proof.
  induction 1 as [|x l HS IH HF]; cbn; [constructor|]. destruct (f x); [|exact IH]. constructor; [exact IH|].
  rewrite Forall_forall in *. intros y Hy. apply filter_In in Hy. now apply HF.
Qed.
Lemma ssorted_impl (Q : A -> A -> Prop) l : (forall x y, In x l -> In y l -> R x y -> Q x y) -> StronglySorted R l -> StronglySorted Q l.
Proof.
  intros HI H. induction H as [|x l HS IH HF]; constructor.
  - apply IH. intros y z Hy Hz. apply HI; right; auto.
  - rewrite Forall_forall in *. intros y Hy. apply HI; [left; reflexivity|right; exact Hy|now apply HF].
Qed.
End L.
Lemma ssorted_rev {A} (R : A -> A -> Prop) l : StronglySorted R l -> StronglySorted (fun a b => R b a) (rev l).
Proof.
  induction 1 as [|x l HS IH HF]; [constructor|]. cbn. apply ssorted_app. repeat split; [exact IH|repeat constructor|].
  intros y z Hy [<-|[]]. rewrite Forall_forall in HF. apply HF. now apply in_rev.
Qed.
Lemma permutation_filter {A} (f : A -> bool) l l' : Permutation l l' -> Permutation (filter f l) (filter f l').
Proof. induction 1; cbn; [constructor|destruct (f x); auto using perm_skip|destruct (f x), (f y); try apply perm_swap; reflexivity|etransitivity; eauto]. Qed.
Lemma filter_length_perm {A} (f : A -> bool) l l' : Permutation l l' -> List.length (filter f l) = List.length (filter f l').
Proof. intros H. now apply Permutation_length, permutation_filter. Qed.

Section N.
Context {K V G : Type}.
Variable leb : K -> K -> bool.
Hypothesis leb_total : forall a b, leb a b = true \/ leb b a = true.
Hypothesis leb_trans : forall a b c, leb a b = true -> leb b c = true -> leb a c = true.
Notation row := (row K V G).
Notation prec := (@may_precede K V G leb).
Definition precb (e : engine) (asc : bool) (a b : row) : bool :=
  match row_key a, row_key b with
  | Some x, Some y => if asc then leb x y else leb y x
  | None, None => true
  | Some _, None => match e with Pandas => true | BigQuery => negb asc end
  | None, Some _ => match e with Pandas => false | BigQuery => asc end
  end.
Lemma precb_iff e asc a b : precb e asc a b = true <-> prec e asc a b.
Proof. unfold precb, may_precede. destruct (row_key a), (row_key b), asc, e; cbn; split; auto; try discriminate; intros []. Qed.
Lemma prec_total e asc a b : prec e asc a b \/ prec e asc b a.
Proof. unfold may_precede. destruct (row_key a), (row_key b), asc, e; auto; try apply leb_total; destruct (leb_total k k0); auto. Qed.
Lemma prec_trans e asc a b c : prec e asc a b -> prec e asc b c -> prec e asc a c.
Proof. unfold may_precede. destruct (row_key a), (row_key b), (row_key c), asc, e; eauto; try discriminate; try tauto. Qed.
Lemma prec_refl e asc a : prec e asc a a.
Proof. destruct (prec_total e asc a a); auto. Qed.

(** insertion sort shows a sorted order exists *)
Fixpoint insert e asc (x : row) (l : list row) : list row :=
  match l with [] => [x] | y :: l' => if precb e asc x y then x :: l else y :: insert e asc x l' end.
Lemma insert_perm e asc x l : Permutation (x :: l) (insert e asc x l).
Proof. induction l as [|y l IH]; cbn; [reflexivity|]. destruct (precb e asc x y); [reflexivity|]. rewrite perm_swap. now constructor. Qed.
Lemma insert_sorted e asc x l : StronglySorted (prec e asc) l -> StronglySorted (prec e asc) (insert e asc x l).
Proof.
  induction 1 as [|y l HS IH HF]; cbn; [repeat constructor|]. destruct (precb e asc x y) eqn:E.
  - apply precb_iff in E. constructor; [now constructor|]. constructor; [exact E|]. eapply Forall_impl; [|exact HF]. cbn. intros z Hz. eapply prec_trans; eassumption.
  - constructor; [exact IH|]. assert (P := insert_perm e asc x l). eapply Permutation_Forall; [exact P|]. constructor; [|exact HF].
    destruct (prec_total e asc x y) as [H|H]; [|exact H]. apply precb_iff in H. congruence.
Qed.
Lemma sort_exists e asc (df : list row) : exists df', sorts_to leb e asc df df'.
Proof.
  induction df as [|x df [df' [P S]]]; [exists []; split; constructor|].
  exists (insert e asc x df'). split; [|now apply insert_sorted]. rewrite <- insert_perm. now constructor.
Qed.

(** strictly before / not after *)
Definition before e asc (r x : row) : bool := negb (precb e asc r x).
Definition not_after e asc (r x : row) : bool := precb e asc x r.
Lemma before_not_after e asc r x : before e asc r x = true -> not_after e asc r x = true.
Proof.
  unfold before, not_after. rewrite negb_true_iff. intros H. apply precb_iff. destruct (prec_total e asc x r) as [|Q]; [assumption|].
  apply precb_iff in Q. congruence.
Qed.
Lemma filter_true {A} (f : A -> bool) l : (forall x, In x l -> f x = true) -> filter f l = l.
Proof. induction l; cbn; intros H; [reflexivity|]. rewrite H by now left. f_equal. apply IHl. intros; apply H; now right. Qed.
Lemma filter_false {A} (f : A -> bool) l : (forall x, In x l -> f x = false) -> filter f l = [].
Proof. induction l; cbn; intros H; [reflexivity|]. rewrite H by now left. apply IHl. intros; apply H; now right. Qed.
(** position k of a sorted order: fewer than or exactly k rows strictly before, more than k not after *)
Lemma position_counts e asc (a : list row) r b : StronglySorted (prec e asc) (a ++ r :: b) ->
  List.length (filter (before e asc r) (a ++ r :: b)) <= List.length a < List.length (filter (not_after e asc r) (a ++ r :: b)).
Proof.
  intros H. apply ssorted_app in H. destruct H as (Sa & Sb & H).
  assert (Ea : filter (not_after e asc r) a = a).
  { apply filter_true. intros x Hx. unfold not_after. apply precb_iff. apply H; [exact Hx|now left]. }
  assert (Eb : filter (before e asc r) (r :: b) = []).
  { apply filter_false. intros x Hx. unfold before. rewrite negb_false_iff. apply precb_iff. inversion Sb as [|? ? _ F]; subst.
    destruct Hx as [<-|Hx]; [apply prec_refl|]. rewrite Forall_forall in F. now apply F. }
  rewrite !filter_app, Ea, Eb, app_nil_r, app_length. cbn [filter]. unfold not_after at 1. rewrite (proj2 (precb_iff e asc r r) (prec_refl e asc r)). cbn [List.length].
  split; [|lia]. clear. induction a as [|x a]; cbn; [lia|]. destruct (before e asc r x); cbn; lia.
Qed.
(** a sorted list is: those before r, those equal, those after *)
Lemma sorted_split e asc r (l : list row) : StronglySorted (prec e asc) l -> exists A T B, l = A ++ T ++ B /\
  A = filter (before e asc r) l /\ A ++ T = filter (not_after e asc r) l /\ (forall x, In x T -> prec e asc x r /\ prec e asc r x).
Proof.
  induction 1 as [|x l HS IH HF].
  { exists [], [], []. repeat split; intros; contradiction. }
  destruct IH as (A & T & B & E & EA & EAT & HT). rewrite Forall_forall in HF. cbn [filter].
  destruct (before e asc r x) eqn:B1.
  { rewrite (before_not_after _ _ _ _ B1), <- EAT. exists (x :: A), T, B. cbn. split; [now f_equal|]. split; [now f_equal|]. now split. }
  assert (PX : prec e asc r x) by (unfold before in B1; rewrite negb_false_iff in B1; now apply precb_iff).
  assert (A0 : filter (before e asc r) l = []).
  { apply filter_false. intros y Hy. unfold before. rewrite negb_false_iff. apply precb_iff. eapply prec_trans; [exact PX|]. now apply HF. }
  rewrite A0 in EA. subst A. cbn in E, EAT. rewrite A0. destruct (not_after e asc r x) eqn:N.
  - exists [], (x :: T), B. cbn. split; [now f_equal|]. split; [reflexivity|]. split; [now f_equal|]. intros y [<-|Hy]; [|now apply HT]; split; [now apply precb_iff|exact PX].
  - exists [], [], (x :: l). cbn. split; [reflexivity|]. split; [reflexivity|]. split; [|intros ? []].
    symmetry. apply filter_false. intros y Hy. destruct (not_after e asc r y) eqn:Q; [|reflexivity]. exfalso.
    unfold not_after in *. apply precb_iff in Q. assert (prec e asc x r) by (eapply prec_trans; [apply HF, Hy|exact Q]). apply precb_iff in H. congruence.
Qed.
(** and the equal ones may be in any order *)
Lemma tie_perm e asc (r : row) A T T' B : StronglySorted (prec e asc) (A ++ T ++ B) -> (forall x, In x T -> prec e asc x r /\ prec e asc r x) ->
  Permutation T T' -> StronglySorted (prec e asc) (A ++ T' ++ B).
Proof.
  intros H HT P. rewrite ssorted_app in H. destruct H as (SA & STB & HA). rewrite ssorted_app in STB. destruct STB as (ST & SB & HB).
  apply ssorted_app. repeat split; [exact SA| |].
  - apply ssorted_app. repeat split; [|exact SB|].
    + assert (HT' : forall x, In x T' -> prec e asc x r /\ prec e asc r x) by (intros x Hx; apply HT; eapply Permutation_in; [symmetry; exact P|exact Hx]).
      clear - HT' leb_total leb_trans. induction T' as [|x T' IH]; [constructor|]. constructor; [apply IH; intros; apply HT'; now right|].
      apply Forall_forall. intros y Hy. eapply prec_trans; [apply HT'; now left|apply HT'; now right].
    + intros x y Hx Hy. apply HB; [|exact Hy]. eapply Permutation_in; [symmetry; exact P|exact Hx].
  - intros x y Hx Hy. apply HA; [exact Hx|]. rewrite in_app_iff in *. destruct Hy as [Hy|Hy]; [left|right; exact Hy]. eapply Permutation_in; [symmetry; exact P|exact Hy].
Qed.
Lemma move_to {A} (x : A) l k : In x l -> k < List.length l -> exists l', Permutation l l' /\ nth_error l' k = Some x.
Proof.
  intros H Hk. apply in_split in H. destruct H as (a & b & ->).
  exists (firstn k (a ++ b) ++ x :: skipn k (a ++ b)). assert (HL : k <= List.length (a ++ b)) by (rewrite app_length in *; cbn in Hk; lia). split.
  - rewrite <- Permutation_middle, <- Permutation_middle. now rewrite firstn_skipn.
  - rewrite nth_error_app2; rewrite firstn_length_le by exact HL; [|lia]. now rewrite Nat.sub_diag.
Qed.
(** the row at position k of some sorted order *)
Lemma position_iff e asc (df : list row) k r : (exists df', sorts_to leb e asc df df' /\ nth_error df' k = Some r) <->
  In r df /\ List.length (filter (before e asc r) df) <= k < List.length (filter (not_after e asc r) df).
Proof.
  split.
  - intros (df' & [P S] & HN). split; [eapply Permutation_in; [symmetry; exact P|now apply nth_error_In in HN]|].
    rewrite (filter_length_perm _ _ _ P), (filter_length_perm (not_after e asc r) _ _ P).
    apply nth_error_split in HN. destruct HN as (a & b & -> & <-). now apply position_counts.
  - intros [HI [H1 H2]]. destruct (sort_exists e asc df) as (df' & P & S).
    destruct (sorted_split e asc r df' S) as (A & T & B & E & EA & EAT & HT).
    rewrite (filter_length_perm _ _ _ P), <- EA in H1. rewrite (filter_length_perm _ _ _ P), <- EAT, app_length in H2.
    assert (HrT : In r T).
    { assert (In r (A ++ T)). { rewrite EAT. apply filter_In. split; [now apply (Permutation_in _ P)|]. unfold not_after. apply precb_iff, prec_refl. }
      apply in_app_iff in H. destruct H as [H|H]; [|exact H]. rewrite EA in H. apply filter_In in H. destruct H as [_ H]. unfold before in H.
      rewrite negb_true_iff in H. pose proof (proj2 (precb_iff e asc r r) (prec_refl e asc r)). congruence. }
    destruct (move_to r T (k - List.length A) HrT ltac:(lia)) as (T' & PT & HN).
    exists (A ++ T' ++ B). split; [split|].
    + rewrite P, E. apply Permutation_app_head, Permutation_app_tail, PT.
    + rewrite E in S. eapply tie_perm; eassumption.
    + rewrite nth_error_app2 by lia. rewrite nth_error_app1 by (apply Permutation_length in PT; lia). exact HN.
Qed.
Lemma limit_offset_is n (df : list row) : limit_offset n df = nth_of n df.
Proof.
  unfold limit_offset, nth_of. replace (nth_error (firstn (n + 1) df) n) with (nth_error df n); [reflexivity|].
  revert df. induction n; intros [|x df]; cbn; try reflexivity. apply IHn.
Qed.
End N.
Section M.
Context {K V G : Type}.
Variable leb : K -> K -> bool.
Hypothesis leb_total : forall a b, leb a b = true \/ leb b a = true.
Hypothesis leb_trans : forall a b c, leb a b = true -> leb b c = true -> leb a c = true.
Variable geqb : G -> G -> bool.
Notation row := (row K V G).
Lemma filter_insert f e asc (x : row) l : f x = false -> filter f (insert leb e asc x l) = filter f l.
Proof. intros H. induction l as [|y l IH]; cbn; [now rewrite H|]. destruct (precb leb e asc x y); cbn; [now rewrite H|now rewrite IH]. Qed.
Lemma extend_sorted f e asc (df s : list row) : sorts_to leb e asc (filter f df) s -> exists df', sorts_to leb e asc df df' /\ filter f df' = filter f s.
Proof.
  revert s. intros s [P S].
  assert (Q : Permutation df (filter f df ++ filter (fun x => negb (f x)) df)).
  { clear. induction df as [|x df IH]; [reflexivity|]. cbn. destruct (f x); cbn; [now constructor|]. rewrite <- Permutation_middle. now constructor. }
  assert (H : forall rest, Forall (fun x => f x = false) rest -> exists df', Permutation (s ++ rest) df' /\ StronglySorted (may_precede leb e asc) df' /\ filter f df' = filter f s).
  { induction rest as [|x rest IH]; intros HF.
    - exists s. rewrite app_nil_r. auto.
    - inversion HF as [|? ? Hx Hr]; subst. destruct (IH Hr) as (df' & P' & S' & E'). exists (insert leb e asc x df'). split; [|split].
      + rewrite <- Permutation_middle, <- insert_perm. now constructor.
      + now apply insert_sorted.
      + rewrite filter_insert by exact Hx. exact E'. }
  destruct (H (filter (fun x => negb (f x)) df)) as (df' & P' & S' & E').
  { apply Forall_forall. intros x Hx. apply filter_In in Hx. now apply negb_true_iff. }
  exists df'. split; [split; [|exact S']|exact E']. rewrite Q, P. exact P'.
Qed.
Lemma drop_filter f d (df : list row) : drop_missing d (filter f df) = filter f (drop_missing d df).
Proof. destruct d; [|reflexivity]. cbn. induction df as [|x df IH]; [reflexivity|]. cbn. destruct (f x) eqn:E, (row_val x) eqn:E2; cbn; rewrite ?E, ?E2, IH; reflexivity. Qed.
End M.

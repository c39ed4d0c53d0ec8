(** Objects on a heap: denotations, updates and deep copies. *)
From Coq Require Import List String Bool Arith Lia.
Import ListNotations.
From Verif Require Import M_Objects S_Objects.

Fixpoint height (t : tree) : nat :=
  match t with TConst _ => O | Node _ ts => S (list_max (map height ts)) end.

Section TreeInd.
Variable P : tree -> Prop.
Hypothesis HC : forall s, P (TConst s).
Hypothesis HN : forall l ts, Forall P ts -> P (Node l ts).
Fixpoint tree_ind2 (t : tree) : P t :=
  match t with
  | TConst s => HC s
  | Node l ts => HN l ts ((fix go (ts : list tree) : Forall P ts :=
                             match ts with [] => Forall_nil P | t :: r => Forall_cons t (tree_ind2 t) (go r) end) ts)
  end.
End TreeInd.

Lemma height_In : forall t ts, In t ts -> height t <= list_max (map height ts).
Proof.
  intros t ts H. pose proof (proj1 (list_max_le (map height ts) (list_max (map height ts))) (le_n _)) as F.
  rewrite Forall_forall in F. apply F. now apply in_map.
Qed.

Lemma F2_left : forall {A B} (R : A -> B -> Prop) l1 l2 x, Forall2 R l1 l2 -> In x l1 ->
  exists y, In y l2 /\ R x y.
Proof.
  intros A B R l1 l2 x F. induction F as [|a b l1 l2 H F IH]; intros I; [destruct I|].
  destruct I as [->|I]; [exists b; split; [now left|exact H]|].
  destruct (IH I) as (y & Y & Z). exists y. split; [now right|exact Z].
Qed.

Lemma F2_impl : forall {A B} (R R' : A -> B -> Prop) l1 l2, (forall x y, R x y -> R' x y) ->
  Forall2 R l1 l2 -> Forall2 R' l1 l2.
Proof. intros A B R R' l1 l2 H F. induction F; constructor; auto. Qed.

Lemma F2_length : forall {A B} (R : A -> B -> Prop) l1 l2, Forall2 R l1 l2 -> List.length l1 = List.length l2.
Proof. intros A B R l1 l2 F. induction F; cbn [List.length]; auto. Qed.

(** ** Denotations *)
Lemma denotes_inv : forall h a t, denotes h (Ref a) t ->
  exists o ts, nth_error h a = Some o /\ Forall2 (denotes h) (kids o) ts /\ t = Node (lab o) ts.
Proof. intros h a t H. inversion H; subst. eauto. Qed.

Lemma denotes_fun : forall h t c t', denotes h c t -> denotes h c t' -> t' = t.
Proof.
  intros h t. induction t as [s|l ts IH] using tree_ind2; intros c t' D D'.
  - inversion D; subst. inversion D'; subst; auto.
  - destruct c as [a|]; [|inversion D].
    apply denotes_inv in D as (o & us & E & F & X). injection X as -> ->.
    apply denotes_inv in D' as (o' & us' & E' & F' & ->). rewrite E in E'. injection E' as <-.
    f_equal. clear E. revert us' F'. induction F as [|k u ks us' K F I]; intros vs F'.
    + inversion F'; auto.
    + inversion F'; subst. inversion IH; subst. f_equal; eauto.
Qed.

(** The heaps agree on the objects a metric is made of. *)
Lemma denotes_agree : forall h h' t c, denotes h c t ->
  (forall b, made_of h c b -> nth_error h' b = nth_error h b) -> denotes h' c t.
Proof.
  intros h h' t. induction t as [s|l ts IH] using tree_ind2; intros c D A.
  - inversion D; subst. constructor.
  - destruct c as [a|]; [|inversion D].
    apply denotes_inv in D as (o & us & E & F & X). injection X as -> ->.
    assert (E' : nth_error h' a = Some o) by (rewrite A; [exact E|constructor]).
    apply (denotes_node h' a o us); [exact E'|].
    assert (Q : forall k b, In k (kids o) -> made_of h k b -> nth_error h' b = nth_error h b).
    { intros k b K M. apply A. econstructor; eauto. }
    clear A E E'. induction F as [|k u ks us K F I]; constructor.
    + inversion IH; subst. apply H1; [exact K|]. intros b M. apply (Q k); [now left|exact M].
    + inversion IH; subst. apply I; auto. intros k' b K' M. apply (Q k'); [now right|exact M].
Qed.

Lemma made_of_agree : forall h h' c b, made_of h' c b -> forall t, denotes h c t ->
  (forall b, made_of h c b -> nth_error h' b = nth_error h b) -> made_of h c b.
Proof.
  intros h h' c b M. induction M as [a|a o k b E K M IH]; intros t D A; [constructor|].
  pose proof D as D0. apply denotes_inv in D as (o' & ts & E' & F & ->).
  rewrite A in E by constructor. rewrite E' in E. injection E as ->.
  econstructor; [exact E'|exact K|].
  destruct (F2_left _ _ _ _ F K) as (t & _ & Dt).
  eapply IH; [exact Dt|]. intros b' M'. apply A. econstructor; eauto.
Qed.

Lemma made_of_some : forall h c b t, made_of h c b -> denotes h c t ->
  exists t', denotes h (Ref b) t' /\ height t' <= height t.
Proof.
  intros h c b t M. revert t. induction M as [a|a o k b E K M IH]; intros t D; [eauto|].
  apply denotes_inv in D as (o' & ts & E' & F & ->). rewrite E in E'. injection E' as <-.
  destruct (F2_left _ _ _ _ F K) as (u & U & Du). destruct (IH _ Du) as (t' & D' & L).
  exists t'. split; [exact D'|]. cbn [height]. pose proof (height_In _ _ U). lia.
Qed.

Lemma made_of_lt : forall h c b t, made_of h c b -> denotes h c t -> b < List.length h.
Proof.
  intros h c b t M D. destruct (made_of_some _ _ _ _ M D) as (t' & D' & _).
  apply denotes_inv in D' as (o & ts & E & _). apply nth_error_Some. congruence.
Qed.

(** A strict part of a metric is another object. *)
Lemma not_below : forall h a o ts k b, denotes h (Ref a) (Node (lab o) ts) -> nth_error h a = Some o ->
  In k (kids o) -> made_of h k b -> b <> a.
Proof.
  intros h a o ts k b D E K M ->.
  apply denotes_inv in D as D0. destruct D0 as (o' & us & E' & F & X). rewrite E in E'. injection E' as <-.
  injection X as ->.
  destruct (F2_left _ _ _ _ F K) as (u & U & Du). destruct (made_of_some _ _ _ _ M Du) as (t' & D' & L).
  pose proof (denotes_fun _ _ _ _ D D') as ->. cbn [height] in L.
  pose proof (height_In _ _ U). lia.
Qed.

(** Chains of different objects are not longer than the heap. *)
Lemma chain : forall h t c, denotes h c t -> exists l, List.length l = height t /\ NoDup l /\
  Forall (fun b => b < List.length h /\ exists t', denotes h (Ref b) t' /\ height t' <= height t) l.
Proof.
  intros h t. induction t as [s|l ts IH] using tree_ind2; intros c D.
  - exists []. repeat split; constructor.
  - destruct c as [a|]; [|inversion D]. pose proof D as D0.
    apply denotes_inv in D as (o & us & E & F & X). injection X as -> ->.
    assert (Hmax : list_max (map height us) = 0 \/ exists u, In u us /\ list_max (map height us) = height u).
    { clear. induction us as [|u us IH]; [now left|]. cbn [map list_max fold_right].
      change (fold_right Init.Nat.max 0 (map height us)) with (list_max (map height us)).
      right. destruct (Nat.max_spec (height u) (list_max (map height us))) as [[A B]|[A B]]; rewrite B.
      - destruct IH as [IH|(v & V & W)]; [lia|]. exists v. split; [now right|exact W].
      - exists u. split; [now left|reflexivity]. }
    assert (La : a < List.length h) by (apply nth_error_Some; congruence).
    destruct Hmax as [Z|(u & U & W)].
    + exists [a]. cbn [height]. rewrite Z. repeat split.
      * constructor; [intros []|constructor].
      * constructor; [|constructor]. split; [exact La|]. eexists. split; [exact D0|]. cbn [height]. lia.
    + rewrite Forall_forall in IH.
      assert (exists k, In k (kids o) /\ denotes h k u) as (k & K & Dk).
      { clear - F U. induction F as [|k v ks vs H F I]; [destruct U|].
        destruct U as [->|U]; [exists k; split; [now left|exact H]|].
        destruct (I U) as (k' & A & B). exists k'. split; [now right|exact B]. }
      destruct (IH u U k Dk) as (p & P1 & P2 & P3).
      exists (a :: p). cbn [height List.length]. rewrite W, P1. repeat split.
      * constructor; [|exact P2]. intros I. rewrite Forall_forall in P3.
        destruct (P3 a I) as (_ & t' & D' & L). pose proof (denotes_fun _ _ _ _ D0 D') as ->.
        cbn [height] in L. lia.
      * constructor; [split; [exact La|]; eexists; split; [exact D0|]; cbn [height]; lia|].
        eapply Forall_impl; [|exact P3]. intros b (B1 & t' & B2 & B3). split; [exact B1|].
        exists t'. split; [exact B2|]. lia.
Qed.

Lemma height_le : forall h t c, denotes h c t -> height t <= List.length h.
Proof.
  intros h t c D. destruct (chain _ _ _ D) as (l & L & N & F). rewrite <- L.
  rewrite <- (seq_length (List.length h) 0). apply NoDup_incl_length; [exact N|].
  intros b B. rewrite Forall_forall in F. apply in_seq. destruct (F b B). lia.
Qed.

(** ** Updates *)
Lemma update_eq : forall h a o, a < List.length h -> nth_error (update h a o) a = Some o.
Proof.
  induction h as [|x h IH]; intros a o L; cbn [List.length] in L; [lia|].
  destruct a; cbn [update nth_error]; [reflexivity|]. apply IH. lia.
Qed.
Lemma update_neq : forall h a o b, b <> a -> nth_error (update h a o) b = nth_error h b.
Proof.
  induction h as [|x h IH]; intros a o b N; [now destruct b|].
  destruct a, b; cbn [update nth_error]; try reflexivity; [congruence|]. apply IH. congruence.
Qed.
Lemma update_length : forall h a o, List.length (update h a o) = List.length h.
Proof. induction h as [|x h IH]; intros a o; [reflexivity|]. destruct a; cbn [update List.length]; auto. Qed.

Lemma set_kids_eq : forall h a o ks, nth_error h a = Some o ->
  nth_error (set_kids h a ks) a = Some {| lab := lab o; kids := ks |}.
Proof. intros h a o ks E. unfold set_kids. rewrite E. apply update_eq. apply nth_error_Some. congruence. Qed.
Lemma set_kids_neq : forall h a ks b, b <> a -> nth_error (set_kids h a ks) b = nth_error h b.
Proof. intros h a ks b N. unfold set_kids. destruct (nth_error h a); [now apply update_neq|reflexivity]. Qed.
Lemma set_kids_length : forall h a ks, List.length (set_kids h a ks) = List.length h.
Proof. intros h a ks. unfold set_kids. destruct (nth_error h a); [apply update_length|reflexivity]. Qed.
Lemma set_label_eq : forall h a o f, nth_error h a = Some o ->
  nth_error (set_label h a f) a = Some {| lab := f (lab o); kids := kids o |}.
Proof. intros h a o f E. unfold set_label. rewrite E. apply update_eq. apply nth_error_Some. congruence. Qed.
Lemma set_label_neq : forall h a f b, b <> a -> nth_error (set_label h a f) b = nth_error h b.
Proof. intros h a f b N. unfold set_label. destruct (nth_error h a); [now apply update_neq|reflexivity]. Qed.
Lemma set_label_length : forall h a f, List.length (set_label h a f) = List.length h.
Proof. intros h a f. unfold set_label. destruct (nth_error h a); [apply update_length|reflexivity]. Qed.

Lemma kept_refl : forall h, kept h h.
Proof. intros h a o E. exact E. Qed.
Lemma kept_trans : forall h1 h2 h3, kept h1 h2 -> kept h2 h3 -> kept h1 h3.
Proof. intros h1 h2 h3 A B a o E. auto. Qed.
Lemma kept_app : forall h r, kept h (h ++ r).
Proof. intros h r a o E. rewrite nth_error_app1; [exact E|]. apply nth_error_Some. congruence. Qed.
Lemma kept_length : forall h h', kept h h' -> List.length h <= List.length h'.
Proof.
  intros h h' K. destruct (le_lt_dec (List.length h) (List.length h')) as [L|L]; [exact L|exfalso].
  destruct (nth_error h (List.length h')) as [o|] eqn:E.
  - apply K in E. assert (List.length h' < List.length h') by (apply nth_error_Some; congruence). lia.
  - apply nth_error_None in E. lia.
Qed.
Lemma kept_lt : forall h h' b, kept h h' -> b < List.length h -> nth_error h' b = nth_error h b.
Proof.
  intros h h' b K L. destruct (nth_error h b) as [o|] eqn:E; [now apply K|].
  apply nth_error_None in E. lia.
Qed.
Lemma kept_set_kids : forall h h' a ks, kept h h' -> List.length h <= a -> kept h (set_kids h' a ks).
Proof.
  intros h h' a ks K L b o E. assert (b < List.length h) by (apply nth_error_Some; congruence).
  rewrite set_kids_neq by lia. auto.
Qed.
Lemma kept_set_label : forall h h' a f, kept h h' -> List.length h <= a -> kept h (set_label h' a f).
Proof.
  intros h h' a f K L b o E. assert (b < List.length h) by (apply nth_error_Some; congruence).
  rewrite set_label_neq by lia. auto.
Qed.
Lemma kept_denotes : forall h h' c t, kept h h' -> denotes h c t -> denotes h' c t.
Proof.
  intros h h' c t K D. eapply denotes_agree; [exact D|]. intros b M.
  apply kept_lt; [exact K|]. eapply made_of_lt; eauto.
Qed.
Lemma kept_made_of : forall h h' c t b, kept h h' -> denotes h c t -> made_of h' c b -> made_of h c b.
Proof.
  intros h h' c t b K D M. eapply made_of_agree; [exact M|exact D|]. intros b' M'.
  apply kept_lt; [exact K|]. eapply made_of_lt; eauto.
Qed.
Lemma alloc_nth : forall (h : heap) o, nth_error (h ++ [o]) (List.length h) = Some o.
Proof. intros h o. rewrite nth_error_app2 by lia. now rewrite Nat.sub_diag. Qed.

Lemma new_iff : forall h h' c, all_new h h' c <-> forall b, made_of h' c b -> List.length h <= b.
Proof.
  intros h h' c. split; intros H b M; specialize (H b M); now apply nth_error_None.
Qed.

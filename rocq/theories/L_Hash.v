(** Proofs about hashing of cache keys. *)
From Coq Require Import List String ZArith QArith Bool Lia.
From Verif Require Import M_Metric M_Cache M_Hash S_Hash L_Fp.
Import ListNotations.
Open Scope string_scope.
Open Scope list_scope.

Lemma fval_rect' (P : fval -> Prop) :
  (forall s, P (FStr s)) -> (forall b, P (FBool b)) -> (forall z, P (FNum z)) -> (forall q, P (FRat q)) ->
  (forall c, P (FCell c)) -> (forall l, Forall P l -> P (FTup l)) ->
  (forall l, Forall (fun p => P (snd p)) l -> P (FFp l)) -> forall v, P v.
Proof.
  intros H1 H2 H3 H4 H5 H6 H7. fix IH 1. intros [s|b|z|r|c|l|l]; [apply H1|apply H2|apply H3|apply H4|apply H5| |].
  - apply H6. induction l; constructor; auto.
  - apply H7. induction l as [|[n x] l IHl]; constructor; [apply IH|exact IHl].
Qed.

Lemma cell_eqb_eq a b : cell_eqb a b = true <-> a = b.
Proof.
  destruct a, b; simpl; try (split; congruence).
  - rewrite String.eqb_eq. split; congruence.
  - rewrite Z.eqb_eq. split; congruence.
Qed.

Lemma fval_eqb_eq a : forall b, fval_eqb a b = true <-> a = b.
Proof.
  induction a as [s|b0|z|r|c|l IH|l IH] using fval_rect'; intros [t|b1|y|r'|c'|l'|l']; simpl; try (split; congruence).
  - rewrite String.eqb_eq. split; congruence.
  - rewrite eqb_true_iff. split; congruence.
  - rewrite Z.eqb_eq. split; congruence.
  - destruct r, r'. simpl. rewrite andb_true_iff, Z.eqb_eq, Pos.eqb_eq. split; [intros []; congruence|]. intros H. injection H. auto.
  - rewrite cell_eqb_eq. split; congruence.
  - revert l'. induction IH as [|x l Hx _ IHl]; intros [|y l']; try (split; congruence).
    rewrite andb_true_iff, Hx, IHl. split; [intros []; congruence|]. intros H. injection H as -> ->. auto.
  - revert l'. induction IH as [|[n x] l Hx _ IHl]; intros [|[m y] l']; try (split; congruence).
    simpl in Hx. rewrite !andb_true_iff, Hx, IHl, String.eqb_eq. split; [intros [[]]; congruence|].
    intros H. injection H as -> -> ->. auto.
Qed.

Lemma list_eqb_eq {A} (eq : A -> A -> bool) (He : forall x y, eq x y = true <-> x = y) l : forall r, list_eqb eq l r = true <-> l = r.
Proof.
  induction l as [|x l IH]; intros [|y r]; simpl; try (split; congruence).
  rewrite andb_true_iff, He, IH. split; [intros []; congruence|]. intros H. injection H. auto.
Qed.
Lemma ckey_eqb_eq a b : ckey_eqb a b = true <-> a = b.
Proof.
  destruct a as [f1 r1 w1 s1 l1], b as [f2 r2 w2 s2 l2]. unfold ckey_eqb. simpl. rewrite !andb_true_iff, fval_eqb_eq.
  rewrite !(list_eqb_eq String.eqb String.eqb_eq).
  rewrite (list_eqb_eq (fun x y : string * cell => String.eqb (fst x) (fst y) && cell_eqb (snd x) (snd y))).
  2: { intros [a1 a2] [b1 b2]. simpl. rewrite andb_true_iff, String.eqb_eq, cell_eqb_eq. split; [intros []; congruence|].
       intros H. injection H. auto. }
  assert (E : match r1, r2 with Some x, Some y => String.eqb x y | None, None => true | _, _ => false end = true <-> r1 = r2).
  { destruct r1, r2; try (split; congruence). rewrite String.eqb_eq. split; congruence. }
  rewrite E. split; [intros [[[[]]]]; congruence|]. intros H. injection H. intros; subst; auto.
Qed.

Lemma py_hash_small z : small z -> py_hash_int z = z.
Proof.
  intros [H1 H2]. unfold py_hash_int. rewrite Z.mod_small by lia. rewrite Z.mul_comm, Z.abs_sgn.
  destruct (Z.eqb_spec z (-1)); congruence.
Qed.
Lemma small_bool (b : bool) : small (if b then 1 else 0).
Proof. split; destruct b; simpl; lia. Qed.

Section Inj.
  Context {H : Type} (h : hashing H).

  Fixpoint tree_hash (v : fval) : H :=
    match v with
    | FStr s => hstr h s | FNum z => hnum h z | FRat q => hrat h q
    | FTup l => htuple h (map tree_hash l)
    | _ => hnone h
    end.
  Fixpoint normal (v : fval) : Prop :=
    match v with
    | FStr _ | FNum _ | FRat _ | FCell CNull => True
    | FTup l => fold_right (fun x r => normal x /\ r) True l
    | _ => False
    end.

  Lemma py_normal v : normal (py v).
  Proof.
    induction v as [s|b|z|r|c|l IH|l IH] using fval_rect'; try exact I.
    - cbn [py]. cbv zeta. destruct Pos.eqb; exact I.
    - destruct c; exact I.
    - induction IH; simpl; auto.
    - induction IH; simpl; auto.
  Qed.
  Lemma hint_small z : small z -> hint h z = hnum h z.
  Proof. intros S. unfold hint. rewrite py_hash_small; auto. Qed.
  Lemma hfval_py v : small_fval v -> hfval h v = tree_hash (py v).
  Proof.
    induction v as [s|b|z|r|c|l IH|l IH] using fval_rect'; intros S; cbn [hfval py tree_hash].
    - reflexivity.
    - apply hint_small, small_bool.
    - apply hint_small, S.
    - cbn in S. cbv zeta. destruct Pos.eqb; [apply hint_small, S|reflexivity].
    - destruct c; try reflexivity. apply hint_small, S.
    - f_equal. cbn [small_fval] in S. induction IH; [reflexivity|]. destruct S. cbn [map]. f_equal; auto.
    - f_equal. cbn [small_fval] in S. induction IH; [reflexivity|]. destruct S. cbn [map tree_hash]. f_equal; auto.
      f_equal. f_equal. f_equal. auto.
  Qed.

  Lemma tree_inj (cf : collision_free h) v1 : forall v2, normal v1 -> normal v2 -> tree_hash v1 = tree_hash v2 -> v1 = v2.
  Proof.
    destruct cf as [_ cs ct cn cr ck].
    assert (ck' : forall s l z q, hstr h s <> htuple h l /\ hstr h s <> hnum h z /\ hstr h s <> hrat h q /\ hstr h s <> hnone h /\
       htuple h l <> hnum h z /\ htuple h l <> hrat h q /\ htuple h l <> hnone h /\ hnum h z <> hrat h q /\ hnum h z <> hnone h /\ hrat h q <> hnone h).
    { intros s l z q. pose proof (ck s l z q) as X.
      repeat match goal with X : NoDup (_ :: _) |- _ => inversion X; clear X; subst end. simpl in *. intuition congruence. }
    induction v1 as [s|b|z|r|c|l IH|l IH] using fval_rect'; intros [t|b'|y|r'|c'|l'|l'] N1 N2 E; simpl in N1, N2; try contradiction;
      try (destruct c; try contradiction); try (destruct c'; try contradiction); simpl in E;
      try (exfalso; match type of E with
        | hstr _ ?s = htuple _ ?l => destruct (ck' s l 0%Z 0%Q)
        | hstr _ ?s = hnum _ ?z => destruct (ck' s [] z 0%Q)
        | hstr _ ?s = hrat _ ?q => destruct (ck' s [] 0%Z q)
        | hstr _ ?s = hnone _ => destruct (ck' s [] 0%Z 0%Q)
        | htuple _ ?l = hstr _ ?s => destruct (ck' s l 0%Z 0%Q)
        | htuple _ ?l = hnum _ ?z => destruct (ck' "" l z 0%Q)
        | htuple _ ?l = hrat _ ?q => destruct (ck' "" l 0%Z q)
        | htuple _ ?l = hnone _ => destruct (ck' "" l 0%Z 0%Q)
        | hnum _ ?z = hstr _ ?s => destruct (ck' s [] z 0%Q)
        | hnum _ ?z = htuple _ ?l => destruct (ck' "" l z 0%Q)
        | hnum _ ?z = hrat _ ?q => destruct (ck' "" [] z q)
        | hnum _ ?z = hnone _ => destruct (ck' "" [] z 0%Q)
        | hrat _ ?q = hstr _ ?s => destruct (ck' s [] 0%Z q)
        | hrat _ ?q = htuple _ ?l => destruct (ck' "" l 0%Z q)
        | hrat _ ?q = hnum _ ?z => destruct (ck' "" [] z q)
        | hrat _ ?q = hnone _ => destruct (ck' "" [] 0%Z q)
        | hnone _ = hstr _ ?s => destruct (ck' s [] 0%Z 0%Q)
        | hnone _ = htuple _ ?l => destruct (ck' "" l 0%Z 0%Q)
        | hnone _ = hnum _ ?z => destruct (ck' "" [] z 0%Q)
        | hnone _ = hrat _ ?q => destruct (ck' "" [] 0%Z q)
        end; intuition congruence).
    - f_equal; auto.
    - f_equal; auto.
    - f_equal; auto.
    - reflexivity.
    - f_equal. apply ct in E. revert l' N2 E. induction IH as [|x l Hx _ IHl]; intros [|y l'] N2 E; try discriminate; [reflexivity|].
      simpl in *. destruct N1, N2. injection E as E1 E2. f_equal; [apply Hx; auto|apply IHl; auto].
  Qed.

  Lemma hkey_inj (cf : collision_free h) k1 k2 : small_key k1 -> small_key k2 -> keq_by_hash h k1 k2 = true ->
    py (k_fp k1) = py (k_fp k2) /\ k_raw k1 = k_raw k2 /\ k_where k1 = k_where k2 /\ k_split k1 = k_split k2 /\ k_slice k1 = k_slice k2.
  Proof.
    intros [S1 L1] [S2 L2] E. unfold keq_by_hash in E. apply (cf_eqb h cf) in E. unfold hkey in E. apply (cf_tuple h cf) in E.
    injection E as E1 E2 E3 E4 E5.
    assert (strs : forall l r, htuple h (map (hstr h) l) = htuple h (map (hstr h) r) -> l = r).
    { intros l r X. apply (cf_tuple h cf) in X. apply (map_inj (hstr h)); auto. apply (cf_str h cf). }
    split; [|split; [|split; [|split]]]; auto.
    - apply (tree_inj cf); try apply py_normal. rewrite <- !hfval_py; auto.
    - pose proof (fun s => cf_kinds h cf s [] 0%Z 0%Q) as K.
      assert (D : forall s, hstr h s <> hnone h).
      { intros s X. specialize (K s). inversion K; subst. apply H2. rewrite X. simpl. auto. }
      destruct (k_raw k1), (k_raw k2); auto.
      + f_equal. apply (cf_str h cf). auto.
      + destruct (D r); auto.
      + destruct (D r); auto.
    - apply (cf_tuple h cf) in E4.
      assert (C : forall c1 c2, (match c1 with CNum z => small z | _ => True end) -> (match c2 with CNum z => small z | _ => True end) ->
                hcell h c1 = hcell h c2 -> c1 = c2).
      { intros c1 c2 X1 X2 X.
        assert (Y : tree_hash (py (FCell c1)) = tree_hash (py (FCell c2))).
        { rewrite <- !hfval_py; auto. }
        apply (tree_inj cf) in Y; try apply py_normal. destruct c1, c2; simpl in Y; congruence. }
      revert E4 L2. generalize (k_slice k2). clear - L1 C cf. induction L1 as [|[n c] l Hc _ IH]; intros [|[n' c'] l'] E L2; try discriminate; [reflexivity|].
      inversion L2; subst. cbn [map fst snd] in E.
      assert (E' := E). injection E' as E1 E2. apply (cf_tuple h cf) in E1. injection E1 as E1 E3. f_equal.
      + f_equal; [apply (cf_str h cf); auto|apply C; auto].
      + apply IH; auto.
  Qed.
End Inj.

Lemma ideal_collision_free : collision_free ideal.
Proof.
  constructor; simpl.
  - apply fval_eqb_eq.
  - congruence.
  - congruence.
  - congruence.
  - congruence.
  - intros. repeat constructor; simpl; intuition congruence.
Qed.

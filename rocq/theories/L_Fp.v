(** Proofs about fingerprints. *)
From Coq Require Import List String ZArith QArith Bool Permutation Lia.
From Verif Require Import M_Metric M_Cache S_Cache.
Import ListNotations.
Open Scope string_scope.
Open Scope list_scope.

(** ** Induction on trees *)
Lemma metric_rect' (P : metric -> Prop) :
  (forall z, P (Const z)) ->
  (forall i k w cs, Forall P cs -> P (Node i k w cs)) -> forall m, P m.
Proof.
  intros Hc Hn. fix IH 1. intros [z|i k w cs]; [apply Hc|]. apply Hn.
  induction cs as [|c r IHr]; constructor; [apply IH|exact IHr].
Qed.

Lemma fold_and {A} (P : A -> Prop) l : fold_right (fun c r => P c /\ r) True l <-> Forall P l.
Proof.
  induction l as [|x l IH]; simpl; [split; auto|]. rewrite IH. split; [intros []; auto|].
  intros H; inversion H; auto.
Qed.
Lemma every_node P i k w cs : every P (Node i k w cs) <-> P i k w cs /\ Forall (every P) cs.
Proof. simpl. rewrite fold_and. tauto. Qed.

(** ** String order and sorting *)
Lemma str_gtb_asym a b : str_gtb a b = true -> str_gtb b a = false.
Proof.
  unfold str_gtb. rewrite (String.compare_antisym a b). destruct (String.compare b a); simpl; congruence.
Qed.
Lemma str_cmp_eq a b : str_gtb a b = false -> str_gtb b a = false -> a = b.
Proof.
  unfold str_gtb. rewrite (String.compare_antisym a b).
  destruct (String.compare b a) eqn:E; simpl; try congruence. intros _ _.
  apply String.compare_eq_iff in E. congruence.
Qed.

Lemma sort_ins_perm x l : Permutation (sort_ins x l) (x :: l).
Proof.
  induction l as [|y l IH]; simpl; [auto|]. destruct (str_gtb x y); auto.
  rewrite IH. apply perm_swap.
Qed.
Lemma sort_perm l : Permutation (sort l) l.
Proof. induction l as [|x l IH]; simpl; [auto|]. rewrite sort_ins_perm, IH. reflexivity. Qed.

Lemma existsb_perm {A} (f : A -> bool) l1 l2 : Permutation l1 l2 -> existsb f l1 = existsb f l2.
Proof.
  induction 1; simpl; try congruence. now rewrite !orb_assoc, (orb_comm (f y)).
Qed.
Lemma forallb_perm {A} (f : A -> bool) l1 l2 : Permutation l1 l2 -> forallb f l1 = forallb f l2.
Proof.
  induction 1; simpl; try congruence. now rewrite !andb_assoc, (andb_comm (f y)).
Qed.
Lemma query_perm {V} (S : sem V) w w' df : Permutation w w' -> query S w df = query S w' df.
Proof.
  intros H. unfold query. rewrite (existsb_perm _ _ _ H). destruct existsb; [reflexivity|].
  f_equal. apply filter_ext. intros r. apply forallb_perm, H.
Qed.

Lemma map_inj {A B} (f : A -> B) (Hf : forall x y, f x = f y -> x = y) l1 : forall l2, map f l1 = map f l2 -> l1 = l2.
Proof.
  induction l1 as [|x l1 IH]; intros [|y l2]; simpl; intros H; try discriminate; [reflexivity|].
  injection H as H1 H2. f_equal; auto.
Qed.
Lemma fstr_inj x y : FStr x = FStr y -> x = y. Proof. congruence. Qed.
Lemma fcell_inj x y : FCell x = FCell y -> x = y. Proof. congruence. Qed.
Lemma frat_inj x y : FRat x = FRat y -> x = y. Proof. congruence. Qed.

Lemma where_fp_query {V} (S : sem V) w w' df : where_fp w = where_fp w' -> query S w df = query S w' df.
Proof.
  destruct w as [|x w], w' as [|y w']; intros H; try discriminate; [reflexivity|].
  unfold where_fp in H. injection H as H. apply (map_inj _ fstr_inj) in H.
  assert (E : sort (x :: w) = sort (y :: w')) by exact H.
  apply query_perm. rewrite <- (sort_perm (x :: w)), <- (sort_perm (y :: w')), E. reflexivity.
Qed.

(** ** Reading a fingerprint back *)
Definition leaf_named (l : leaf) : Prop := match l with LCustom c _ => ~ In c builtin_classes | _ => True end.

Definition swap (a b : string) : string * string := if str_gtb a b then (b, a) else (a, b).
(** Columns in alphabetical order. *)
Definition canon_leaf (l : leaf) : leaf :=
  match l with
  | LDot a b n => let (x, y) := swap a b in LDot x y n
  | LCorrelation a b w m => let (x, y) := swap a b in LCorrelation x y w m
  | LCov a b bi d w f => let (x, y) := swap a b in LCov x y bi d w f
  | l => l
  end.

Definition gets (k : string) (f : list (string * fval)) : string :=
  match assoc k f with Some (FStr s) => s | _ => "" end.
Definition geto (k : string) (f : list (string * fval)) : option string :=
  match assoc k f with Some (FStr s) => Some s | _ => None end.
Definition getb (k : string) (f : list (string * fval)) : bool :=
  match assoc k f with Some (FBool b) => b | _ => false end.
Definition getz (k : string) (f : list (string * fval)) : Z :=
  match assoc k f with Some (FNum z) => z | _ => 0%Z end.
Definition getzo (k : string) (f : list (string * fval)) : option Z :=
  match assoc k f with Some (FNum z) => Some z | _ => None end.
Definition unq (v : fval) : Q := match v with FRat q => q | _ => 0%Q end.
Definition uncell (v : fval) : cell := match v with FCell c => c | _ => CNull end.
Definition unstr (v : fval) : string := match v with FStr c => c | _ => "" end.
Definition getl {A} (u : fval -> A) (k : string) (f : list (string * fval)) : list A :=
  match assoc k f with Some (FTup l) => map u l | _ => [] end.
Definition getlo {A} (u : fval -> A) (k : string) (f : list (string * fval)) : option (list A) :=
  match assoc k f with Some (FTup l) => Some (map u l) | _ => None end.

Fixpoint pick {A} (c : string) (l : list (string * A)) (d : A) : A :=
  match l with [] => d | (n, x) :: r => if String.eqb c n then x else pick c r d end.

Definition dec_kind (f : list (string * fval)) : nat * kind :=
  let v := gets "var" f in let w := geto "weight" f in
  let ex := getl unstr "extra_split_by" f in
  let exi := match getlo unstr "extra_index" f with Some l => l | None => ex end in
  let op o := (O, KOp o ex exi) in let lf l := (O, KLeaf l) in
  let base := getl uncell "baseline_key" f in let ib := getb "include_base" f in
  pick (gets "class" f)
    [("MetricList", (O, KList true));
     ("CompositeMetric", (O, KComp (pick (gets "name_tmpl" f)
         [("{} + {}", BAdd); ("{} - {}", BSub); ("{} * {}", BMul); ("-{}", BNeg); ("{} / {}", BDiv); ("{} ^ {}", BPow)] BSqrt)));
     ("Count", lf (LCount v (getb "distinct" f))); ("Sum", lf (LSum v));
     ("Dot", lf (LDot v (gets "var2" f) (getb "normalize" f))); ("Mean", lf (LMean v w)); ("Max", lf (LMax v)); ("Min", lf (LMin v));
     ("Nth", lf (LNth v (getz "n" f) (gets "sort_by" f) (getb "ascending" f) (getb "dropna" f)));
     ("Quantile", lf (LQuantile v (getl unq "quantile" f) w (gets "interpolation" f)));
     ("Variance", lf (LVariance v (getz "ddof" f) w)); ("StandardDeviation", lf (LStdDev v (getz "ddof" f) w));
     ("CV", lf (LCV v (getz "ddof" f))); ("Correlation", lf (LCorrelation v (gets "var2" f) w (gets "method" f)));
     ("Cov", lf (LCov v (gets "var2" f) (getb "bias" f) (getzo "ddof" f) w (geto "fweight" f)));
     ("Distribution", op ODistribution);
     ("CumulativeDistribution", op (OCumulative (getlo uncell "order" f) (getb "ascending" f) (getb "sort_by_values" f)));
     ("PercentChange", op (OPercentChange base ib)); ("AbsoluteChange", op (OAbsoluteChange base ib));
     ("HHI", op OHHI); ("Entropy", op OEntropy); ("TopK", op (OTopK (getz "k" f)));
     ("Nxx", op (ONxx (match assoc "share" f with Some (FRat q) => q | _ => 0%Q end)))]
    (match assoc "children" f with
     | Some _ => (Z.to_nat (getz "id" f), KCustom (gets "class" f))
     | None => (O, KLeaf (LCustom (gets "class" f) (Z.to_nat (getz "id" f))))
     end).

Lemma pick_other {A} c (l : list (string * A)) d : ~ In c (map fst l) -> pick c l d = d.
Proof.
  induction l as [|[n x] l IH]; simpl; [auto|]. intros H. destruct (String.eqb_spec c n) as [->|]; [tauto|]. apply IH. tauto.
Qed.

Lemma where_fp_cases w : where_fp w = [] \/ exists v, where_fp w = [("where", v)].
Proof. destruct w; simpl; eauto. Qed.

Lemma map_map_id {A} (u : fval -> A) (g : A -> fval) : (forall x, u (g x) = x) -> forall l, map u (map g l) = l.
Proof. intros H l. rewrite map_map. induction l; simpl; congruence. Qed.

(** ** Fingerprints of nodes *)
Definition plain_fp (i : nat) (k : kind) (w : list string) (fs : list fval) : list (string * fval) :=
  match k with
  | KLeaf l => leaf_fp l ++ where_fp w
  | KComp b => [("children", FTup fs); cls "CompositeMetric"; ("name_tmpl", FStr (tmpl b))] ++ where_fp w
  | KList _ => [("children", FTup fs); cls "MetricList"] ++ where_fp w
  | KOp o ex exi =>
      op_attrs1 o ++ [("children", FTup fs); cls (op_cls o)] ++
      (if strs_eqb exi ex then [] else [("extra_index", FTup (map FStr exi))]) ++
      (match ex with [] => [] | _ => [("extra_split_by", FTup (map FStr ex))] end) ++
      op_attrs2 o ++ where_fp w
  | KCustom c => [("children", FTup fs); cls c; ("id", FNum (Z.of_nat i))] ++ where_fp w
  end.
Definition not_mean (k : kind) (cs : list metric) : Prop :=
  match k with KComp _ => mean_like cs = None | _ => True end.
Lemma fp_plain i k w cs : not_mean k cs -> fp (Node i k w cs) = FFp (plain_fp i k w (map fp cs)).
Proof. destruct k; simpl; intros H; try reflexivity. rewrite H. reflexivity. Qed.

Definition kind_named (k : kind) : Prop :=
  match k with
  | KLeaf l => leaf_named l
  | KComp (BUser _ _) => False
  | KCustom c => ~ In c builtin_classes
  | KList crd => crd = true
  | _ => True
  end.

Definition canon_kind (i : nat) (k : kind) : nat * kind :=
  match k with
  | KLeaf l => (O, KLeaf (canon_leaf l))
  | KCustom c => (i, KCustom c)
  | k => (O, k)
  end.

Lemma swap_cases (a b : string) : (if str_gtb a b then (b, a) else (a, b)) = (a, b) \/
  (if str_gtb a b then (b, a) else (a, b)) = (b, a).
Proof. destruct str_gtb; auto. Qed.

Lemma dec_leaf l w : leaf_named l -> dec_kind (leaf_fp l ++ where_fp w) = (O, KLeaf (canon_leaf l)).
Proof.
  intros N. destruct (where_fp_cases w) as [->|[vw ->]];
  (destruct l; cbn [leaf_fp canon_leaf]; unfold swap; try destruct (str_gtb var var2); try destruct weight; try destruct ddof;
     try destruct fweight; try reflexivity).
  all: try (cbn; rewrite (map_map_id unq FRat) by reflexivity; reflexivity).
  - unfold dec_kind. cbv zeta. rewrite pick_other by (intros X; apply N; cbn in X; simpl; tauto). cbn. rewrite Nat2Z.id. reflexivity.
  - unfold dec_kind. cbv zeta. rewrite pick_other by (intros X; apply N; cbn in X; simpl; tauto). cbn. rewrite Nat2Z.id. reflexivity.
Qed.
Lemma dec_plain i k w fs : kind_named k -> dec_kind (plain_fp i k w fs) = canon_kind i k.
Proof.
  intros N. destruct k as [l|b|crd|o ex exi|c]; [apply dec_leaf, N| | | |]; unfold plain_fp.
  - destruct (where_fp_cases w) as [->|[vw ->]]; destruct b; try contradiction; reflexivity.
  - cbn in N. subst. destruct (where_fp_cases w) as [->|[vw ->]]; reflexivity.
  - assert (Eexi : exi = match (if strs_eqb exi ex then None else Some exi) with Some l => l | None => ex end)
      by (destruct strs_eqb; auto).
    cbn [canon_kind].
    transitivity (O, KOp o ex (match (if strs_eqb exi ex then None else Some exi) with Some l => l | None => ex end)); [|rewrite <- Eexi; reflexivity].
    clear Eexi. generalize (strs_eqb exi ex). intros e.
    destruct (where_fp_cases w) as [->|[vw ->]]; destruct e, ex as [|x ex], o; try destruct order; cbn;
    rewrite ?(map_map_id unstr FStr), ?(map_map_id uncell FCell) by reflexivity; reflexivity.
  - unfold dec_kind. cbv zeta.
    rewrite pick_other by (intros X; apply N; destruct (where_fp_cases w) as [E|[vw E]]; rewrite E in X; cbn in X; simpl; tauto).
    destruct (where_fp_cases w) as [->|[vw ->]]; cbn; rewrite Nat2Z.id; reflexivity.
Qed.

Lemma assoc_where w : match assoc "where" (where_fp w) with Some v => [("where", v)] | None => [] end = where_fp w.
Proof. destruct w; reflexivity. Qed.
Lemma assoc_app_none {A} k (l r : list (string * A)) : assoc k l = None -> assoc k (l ++ r) = assoc k r.
Proof. induction l as [|[n x] l IH]; simpl; auto. destruct String.eqb; [discriminate|auto]. Qed.
Lemma where_plain i k w fs : assoc "where" (plain_fp i k w fs) = assoc "where" (where_fp w).
Proof.
  destruct k as [l|b|crd|o ex exi|c]; unfold plain_fp.
  - apply assoc_app_none. destruct l; cbn [leaf_fp]; try destruct (str_gtb var var2); try destruct weight; try destruct ddof;
     try destruct fweight; reflexivity.
  - reflexivity.
  - reflexivity.
  - rewrite !app_assoc. apply assoc_app_none. destruct (strs_eqb exi ex), ex, o; try destruct order; reflexivity.
  - reflexivity.
Qed.
Lemma children_plain i k w fs : match k with KLeaf _ => True | _ => assoc "children" (plain_fp i k w fs) = Some (FTup fs) end.
Proof. destruct k as [l|b|crd|o ex exi|c]; try exact I; try reflexivity. destruct o; reflexivity. Qed.

Lemma plain_inj i1 k1 w1 fs1 i2 k2 w2 fs2 : kind_named k1 -> kind_named k2 ->
  plain_fp i1 k1 w1 fs1 = plain_fp i2 k2 w2 fs2 ->
  canon_kind i1 k1 = canon_kind i2 k2 /\ where_fp w1 = where_fp w2 /\
  (match k1 with KLeaf _ => True | _ => fs1 = fs2 end).
Proof.
  intros N1 N2 H.
  assert (K : canon_kind i1 k1 = canon_kind i2 k2).
  { rewrite <- (dec_plain i1 k1 w1 fs1 N1), <- (dec_plain i2 k2 w2 fs2 N2), H. reflexivity. }
  split; [exact K|]. split.
  - rewrite <- (assoc_where w1), <- (assoc_where w2), <- (where_plain i1 k1 w1 fs1), <- (where_plain i2 k2 w2 fs2), H. reflexivity.
  - pose proof (children_plain i1 k1 w1 fs1) as C1. pose proof (children_plain i2 k2 w2 fs2) as C2.
    rewrite <- H in C2. destruct k1, k2; try exact I; try discriminate K; congruence.
Qed.

(** ** Soundness *)
Lemma mean_like_spec cs v w : mean_like cs = Some (v, w) -> sum_and_count cs v w.
Proof.
  unfold mean_like, sum_and_count.
  destruct cs as [|[z|i k1 w1 c1] cs]; try discriminate.
  destruct k1; try discriminate. destruct l; try discriminate.
  destruct c1; try discriminate.
  destruct cs as [|[z|j k2 w2 c2] cs]; try discriminate.
  destruct k2; try discriminate. destruct l; try discriminate. destruct distinct; try discriminate.
  destruct c2; try discriminate. destruct cs; try discriminate.
  destruct (String.eqb var var0) eqn:E1; try discriminate.
  destruct (strs_eqb (sort w1) (sort w2)) as [E2|]; try discriminate.
  simpl. intros H. injection H as <- <-. apply String.eqb_eq in E1. subst.
  exists i, j, w2. split; [reflexivity|]. rewrite <- (sort_perm w1), E2. apply sort_perm.
Qed.

Lemma manip_false {V} (S : sem V) r : manip S false r = Ok r.
Proof. destruct r; reflexivity. Qed.
Lemma query_nil {V} (S : sem V) df : query S [] df = Ok df.
Proof.
  unfold query. simpl. f_equal. induction df as [|r df IH]; simpl; congruence.
Qed.
Lemma rbind_assoc {A B C} (x : res A) (f : A -> res B) (g : B -> res C) :
  rbind (rbind x f) g = rbind x (fun a => rbind (f a) g).
Proof. destruct x; reflexivity. Qed.
Lemma rbind_ext {A B} (x : res A) (f g : A -> res B) : (forall a, f a = g a) -> rbind x f = rbind x g.
Proof. intros H. destruct x; simpl; auto. Qed.
Lemma rmapM_ext2 {A B C} (f : A -> res C) (g : B -> res C) l1 l2 :
  Forall2 (fun x y => f x = g y) l1 l2 -> rmapM f l1 = rmapM g l2.
Proof. induction 1; simpl; [reflexivity|]. rewrite H, IHForall2. reflexivity. Qed.

Lemma Forall2_impl {A B} (P Q : A -> B -> Prop) l1 l2 : (forall x y, P x y -> Q x y) -> Forall2 P l1 l2 -> Forall2 Q l1 l2.
Proof. induction 2; constructor; auto. Qed.

Definition mean_node (v : string) (w : list string) : metric := Node 0 (KLeaf (LMean v None)) w [].

Lemma den_mean {V} (S : sem V) (L : laws S) i cs v w df sb : sum_and_count cs v w ->
  den S (Node i (KComp BDiv) [] cs) df sb = den S (mean_node v w) df sb.
Proof.
  intros (a & b & w' & -> & E). unfold mean_node.
  cbn [den]. rewrite query_nil. cbn [rbind rmapM is_list].
  cbn [den].   rewrite <- (query_perm S w w' df E).
  destruct (query S w df) as [d|e]; [|reflexivity]. cbn [rbind].
  rewrite (mean_is_sum_over_count S L).
  destruct (lsem S (LSum v) d sb) as [s|]; [|reflexivity]. cbn [rbind]. rewrite manip_false. cbn [rbind].
  destruct (lsem S (LCount v false) d sb) as [c|]; [|reflexivity]. cbn [rbind]. rewrite manip_false. reflexivity.
Qed.

Lemma lsem_equiv {V} (S : sem V) (L : laws S) l1 l2 df sb : canon_leaf l1 = canon_leaf l2 -> lsem S l1 df sb = lsem S l2 df sb.
Proof.
  assert (C : forall l, lsem S l df sb = lsem S (canon_leaf l) df sb).
  { intros l. destruct l; try reflexivity; simpl; unfold swap; destruct str_gtb; try reflexivity;
    [apply dot_sym|apply corr_sym|apply cov_sym]; auto. }
  intros E. rewrite (C l1), (C l2), E. reflexivity.
Qed.

Definition same {V} (S : sem V) (m1 m2 : metric) : Prop :=
  (forall df sb, den S m1 df sb = den S m2 df sb) /\ is_list m1 = is_list m2 /\
  (forall z, m1 = Const z <-> m2 = Const z).

Lemma same_nodes {V} (S : sem V) (L : laws S) i1 k1 w1 cs1 i2 k2 w2 cs2 :
  canon_kind i1 k1 = canon_kind i2 k2 -> where_fp w1 = where_fp w2 ->
  (match k1 with KLeaf _ => True | _ => Forall2 (same S) cs1 cs2 end) ->
  same S (Node i1 k1 w1 cs1) (Node i2 k2 w2 cs2).
Proof.
  intros Hk Hw Hc. split; [|split; [destruct k1, k2; try discriminate Hk; reflexivity|intros z; split; discriminate]].
  intros df sb. cbn [den]. rewrite (where_fp_query S w1 w2 df Hw). apply rbind_ext. intros d.
  destruct k1 as [l1|b1|crd1|o1 ex1 exi1|c1], k2 as [l2|b2|crd2|o2 ex2 exi2|c2]; try discriminate Hk; cbn [canon_kind] in Hk.
  - apply lsem_equiv; auto. injection Hk. auto.
  - injection Hk as ->. f_equal. apply rmapM_ext2. eapply Forall2_impl; [|exact Hc]. intros c1 c2 (Hd & Hl & Hz).
    destruct c1 as [z1|], c2 as [z2|]; try reflexivity.
    + destruct (Hz z1) as [X _]. specialize (X eq_refl). congruence.
    + destruct (Hz z1) as [X _]. specialize (X eq_refl). congruence.
    + destruct (Hz z2) as [_ X]. specialize (X eq_refl). congruence.
    + rewrite Hd, Hl. reflexivity.
  - injection Hk as ->. f_equal. f_equal. induction Hc as [|c1 c2 l1 l2 (Hd & _) _ IH]; [reflexivity|]. simpl. rewrite Hd, IH. reflexivity.
  - injection Hk as -> -> ->. destruct Hc as [|c1 c2 l1 l2 (Hd & _) Hc]; [reflexivity|]. destruct Hc; [|reflexivity].
    rewrite Hd. reflexivity.
  - injection Hk as -> ->. destruct Hc as [|m1 m2 l1 l2 (Hd & _) Hc]; [reflexivity|]. destruct Hc; [|reflexivity].
    assert (E : forall d0, rbind (rbind (den S m1 d0 []) (manip S true)) (usem S c2 i2) =
                      rbind (rbind (den S m2 d0 []) (manip S true)) (usem S c2 i2)) by (intros; rewrite Hd; reflexivity).
    destruct sb; [apply E|]. f_equal. apply rmapM_ext2.
    generalize (groups S d (s :: sb)). intros gs. induction gs; constructor; auto. rewrite E. reflexivity.
Qed.

Lemma same_trans {V} (S : sem V) a b c : same S a b -> same S b c -> same S a c.
Proof.
  intros (H1 & H2 & H3) (G1 & G2 & G3). repeat split; intros; try congruence.
  - apply G3, H3; auto.
  - apply H3, G3; auto.
Qed.
Lemma same_sym {V} (S : sem V) a b : same S a b -> same S b a.
Proof. intros (H1 & H2 & H3). repeat split; intros; try congruence; apply H3; auto. Qed.

Lemma built_named i k w cs : built i k w cs -> kind_named k.
Proof.
  destruct k as [l|b|crd|o ex exi|c]; unfold built, kind_named, leaf_named; intros H.
  - exact (proj2 H). - exact H. - exact H. - exact I. - exact (proj1 H).
Qed.

Lemma canon {V} (S : sem V) (L : laws S) i k w cs : fingerprintable (Node i k w cs) ->
  not_mean k cs \/
  exists v w', fp (Node i k w cs) = fp (mean_node v w') /\ same S (Node i k w cs) (mean_node v w').
Proof.
  intros [_ Hm]. destruct k; try (left; exact I). simpl.
  destruct (mean_like cs) as [[v w']|] eqn:E; [right|left; reflexivity].
  rewrite every_node in Hm. destruct Hm as [Hm _]. simpl in Hm.
  pose proof (mean_like_spec _ _ _ E) as SC. destruct (Hm _ _ SC) as [-> ->].
  exists v, w'. split; [reflexivity|].
  split; [|split; [reflexivity|split; discriminate]]. intros. apply den_mean; auto.
Qed.

Theorem fp_sound {V} (S : sem V) (L : laws S) m1 : forall m2,
  fingerprintable m1 -> fingerprintable m2 -> fp m1 = fp m2 -> same S m1 m2.
Proof.
  assert (Hmean : forall i v w, fingerprintable (Node i (KLeaf (LMean v None)) w [])).
  { intros. split; simpl; auto. }
  induction m1 as [z1|i1 k1 w1 cs1 IH] using metric_rect'; intros [z2|i2 k2 w2 cs2] F1 F2 E.
  - injection E as ->. repeat split; auto.
  - destruct (canon S L _ _ _ _ F2) as [N|(v & w' & E' & _)].
    + rewrite (fp_plain _ _ _ _ N) in E. discriminate.
    + rewrite E' in E. discriminate.
  - destruct (canon S L _ _ _ _ F1) as [N|(v & w' & E' & _)].
    + rewrite (fp_plain _ _ _ _ N) in E. discriminate.
    + rewrite E' in E. discriminate.
  - assert (LeafCase : forall v w i k w' cs, fingerprintable (Node i k w' cs) -> not_mean k cs ->
        fp (mean_node v w) = fp (Node i k w' cs) -> same S (mean_node v w) (Node i k w' cs)).
    { intros v w i k w' cs F N H. rewrite (fp_plain _ _ _ _ N) in H. unfold mean_node in *.
      rewrite fp_plain in H by exact I. injection H as H.
      change (plain_fp 0 (KLeaf (LMean v None)) w [] = plain_fp i k w' (map fp cs)) in H. apply plain_inj in H.
      - destruct H as (Hk & Hw & _). apply same_nodes; auto. 
      - exact I.
      - destruct F as [F _]. apply every_node in F. eapply built_named, F. }
    destruct (canon S L _ _ _ _ F1) as [N1|(v1 & w1' & E1 & S1)],
             (canon S L _ _ _ _ F2) as [N2|(v2 & w2' & E2 & S2)].
    + rewrite (fp_plain _ _ _ _ N1), (fp_plain _ _ _ _ N2) in E. injection E as E.
      destruct F1 as [B1 M1], F2 as [B2 M2]. apply every_node in B1, B2, M1, M2.
      apply plain_inj in E; [|eapply built_named, B1|eapply built_named, B2].
      destruct E as (Hk & Hw & Hc). apply same_nodes; auto.
      destruct B1 as [_ B1], B2 as [_ B2], M1 as [_ M1], M2 as [_ M2].
      assert (Hc' : match k1 with KLeaf _ => True | _ => map fp cs1 = map fp cs2 end) by exact Hc.
      assert (FF : map fp cs1 = map fp cs2 -> Forall2 (same S) cs1 cs2).
      { clear -IH B1 B2 M1 M2. revert cs2 B2 M2. induction cs1 as [|c1 cs1 IHc]; intros [|c2 cs2] B2 M2 H; try discriminate; constructor.
        - injection H as H _. inversion IH; inversion B1; inversion B2; inversion M1; inversion M2; subst.
          match goal with H : forall m2, _ |- _ => apply H; auto end; split; auto.
        - injection H as _ H. inversion IH; inversion B1; inversion B2; inversion M1; inversion M2; subst. apply IHc; auto. }
      destruct k1; auto.
    + apply same_trans with (mean_node v2 w2'); [|apply same_sym, S2]. apply same_sym. apply LeafCase; auto.
      rewrite <- E2. auto.
    + apply same_trans with (mean_node v1 w1'); [exact S1|]. apply LeafCase; auto. rewrite <- E1. auto.
    + apply same_trans with (mean_node v1 w1'); [exact S1|]. apply same_trans with (mean_node v2 w2'); [|apply same_sym, S2].
      unfold mean_node at 2. apply LeafCase; [apply Hmean|exact I|]. fold (mean_node v2 w2'). congruence.
Qed.

(** ** The fingerprint inside cache keys *)
Definition unfilter (m : metric) : metric := match m with Node i k _ cs => Node i k [] cs | c => c end.

Lemma filter_app' {A} (f : A -> bool) l1 l2 : filter f (l1 ++ l2) = filter f l1 ++ filter f l2.
Proof. induction l1; simpl; auto. destruct (f a); simpl; congruence. Qed.

Lemma filter_where w : filter (fun p : string * fval => negb (fst p =? "where")) (where_fp w) = [].
Proof. destruct w; reflexivity. Qed.
Lemma filter_leaf l : filter (fun p : string * fval => negb (fst p =? "where")) (leaf_fp l) = leaf_fp l.
Proof.
  destruct l; simpl; try reflexivity; try (destruct weight; reflexivity);
  destruct (swap_cases var var2) as [->| ->]; try reflexivity; try (destruct weight; reflexivity);
  destruct weight, ddof, fweight; reflexivity.
Qed.
Lemma filter_plain i k w fs : filter (fun p => negb (fst p =? "where")) (plain_fp i k w fs) = plain_fp i k [] fs.
Proof.
  destruct k; unfold plain_fp; rewrite ?filter_app', ?filter_where, ?filter_leaf; try reflexivity.
  f_equal; [destruct o; reflexivity|]. f_equal. f_equal; [destruct strs_eqb; reflexivity|].
  f_equal; [destruct extra_split_by; reflexivity|]. f_equal. destruct o; try reflexivity. destruct order; reflexivity.
Qed.

Lemma fp0_unfilter m : every unfiltered_mean m -> fp0 m = fp (unfilter m).
Proof.
  destruct m as [z|i k w cs]; [reflexivity|]. intros U. apply every_node in U. destruct U as [U _].
  unfold fp0, unfilter.
  assert (D : not_mean k cs \/ ~ not_mean k cs).
  { destruct k; simpl; auto. destruct (mean_like cs); [right; discriminate|left; reflexivity]. }
  destruct D as [N|N].
  - rewrite !(fp_plain _ _ _ _ N), filter_plain. reflexivity.
  - destruct k; simpl in N; try tauto. simpl. destruct (mean_like cs) as [[v w']|] eqn:E; [|tauto].
    specialize (U v w' (mean_like_spec _ _ _ E)). subst. reflexivity.
Qed.

Lemma unfilter_fingerprintable m : fingerprintable m -> fingerprintable (unfilter m).
Proof.
  destruct m as [z|i k w cs]; [auto|]. intros [B M]. apply every_node in B, M. destruct B as [B B'], M as [M M'].
  split; apply every_node; split; auto. destruct k; simpl in *; auto. intros v w' H. split; auto. apply (M v w' H).
Qed.

Theorem fp0_sound {V} (S : sem V) (L : laws S) m1 m2 : cacheable m1 -> cacheable m2 -> fp0 m1 = fp0 m2 ->
  forall df sb, den S (unfilter m1) df sb = den S (unfilter m2) df sb.
Proof.
  intros (B1 & M1 & U1) (B2 & M2 & U2) E. rewrite !fp0_unfilter in E by assumption.
  apply (fp_sound S L (unfilter m1) (unfilter m2)); [apply unfilter_fingerprintable; split; auto|apply unfilter_fingerprintable; split; auto|exact E].
Qed.

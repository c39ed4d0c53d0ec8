From Coq Require Import List String Ascii Bool Arith Reals Lia Lra.
From Verif Require Import M_SqlText M_SqlArith S_SqlArith.
Import ListNotations.

Scheme aexp_mut := Induction for aexp Sort Prop
  with operand_mut := Induction for operand Sort Prop.
Combined Scheme aexp_operand_ind from aexp_mut, operand_mut.

Definition stops_mul (r : list atok) : Prop :=
  match r with KMul :: _ | KDiv :: _ => False | _ => True end.
Definition stops_add (r : list atok) : Prop :=
  match r with KMul :: _ | KDiv :: _ | KPlus :: _ | KMinus :: _ => False | _ => True end.
Lemma stops_add_mul r : stops_add r -> stops_mul r.
Proof. destruct r as [|[] r]; simpl; tauto. Qed.

Lemma vmul_assoc a b c : vmul (vmul a b) c = vmul a (vmul b c).
Proof. destruct a, b, c; simpl; try reflexivity. f_equal. ring. Qed.
Lemma vneg_mul a : vneg a = vmul (Some (-1)%R) a.
Proof. destruct a; simpl; [|reflexivity]. f_equal. ring. Qed.
Lemma vmul_1 a : vmul (Some 1%R) a = a.
Proof. destruct a; simpl; [|reflexivity]. f_equal. ring. Qed.

Lemma has_pm_app a b : has_pm (a ++ b) = has_pm a || has_pm b.
Proof. unfold has_pm. apply existsb_app. Qed.

Section Proofs.
  Variable leaf : string -> val.
  Variable num : string -> R.
  Variable power : R -> R -> val.
  Variable sqrtv : R -> val.
  Hypothesis num0 : num "0" = 0%R.
  Notation value := (value leaf num power sqrtv).
  Notation ovalue := (ovalue leaf num power sqrtv).
  Notation p_add := (p_add leaf num power sqrtv).
  Notation p_add_tail := (p_add_tail leaf num power sqrtv).
  Notation p_mul := (p_mul leaf num power sqrtv).
  Notation p_mul_tail := (p_mul_tail leaf num power sqrtv).
  Notation p_un := (p_un leaf num power sqrtv).

  Lemma p_add_S f ts : p_add (S f) ts =
    match p_mul f ts with Some (v, r) => p_add_tail f v r | None => None end.
  Proof. reflexivity. Qed.
  Lemma p_add_tail_S f (v : val) ts : p_add_tail (S f) v ts =
    match ts with
      | KPlus :: r => match p_mul f r with Some (w, r') => p_add_tail f (vadd v w) r' | None => None end
      | KMinus :: r => match p_mul f r with Some (w, r') => p_add_tail f (vsub v w) r' | None => None end
      | _ => Some (v, ts)
      end.
  Proof. reflexivity. Qed.
  Lemma p_mul_S f ts : p_mul (S f) ts =
    match p_un f ts with Some (v, r) => p_mul_tail f v r | None => None end.
  Proof. reflexivity. Qed.
  Lemma p_mul_tail_S f (v : val) ts : p_mul_tail (S f) v ts =
    match ts with
      | KMul :: r => match p_un f r with Some (w, r') => p_mul_tail f (vmul v w) r' | None => None end
      | KDiv :: r => match p_un f r with Some (w, r') => p_mul_tail f (vdiv v w) r' | None => None end
      | _ => Some (v, ts)
      end.
  Proof. reflexivity. Qed.
  Lemma p_un_S f ts : p_un (S f) ts =
    match ts with
      | KMinus :: r => match p_un f r with Some (v, r') => Some (vneg v, r') | None => None end
      | KLeaf s :: r => Some (leaf s, r)
      | KNum s :: r => Some (Some (num s), r)
      | KNull :: r => Some (None, r)
      | KLP :: r => match p_add f r with Some (v, KRP :: r') => Some (v, r') | _ => None end
      | KSqrt :: KLP :: r =>
          match p_add f r with
          | Some (v, KRP :: r') => Some (match v with Some x => sqrtv x | None => None end, r')
          | _ => None end
      | KPower :: KLP :: r =>
          match p_add f r with
          | Some (v, KComma :: r1) =>
              match p_add f r1 with Some (w, KRP :: r') => Some (bind2 power v w, r') | _ => None end
          | _ => None end
      | KIf :: KLP :: r =>
          match p_add f r with
          | Some (a, KEq :: r1) =>
              match p_add f r1 with
              | Some (b, KComma :: r2) =>
                  match p_add f r2 with
                  | Some (c, KComma :: r3) =>
                      match p_add f r3 with
                      | Some (d, KRP :: r4) => Some (sql_if_eq a b c d, r4)
                      | _ => None end
                  | _ => None end
              | _ => None end
          | _ => None end
      | _ => None
      end.
  Proof. reflexivity. Qed.

  (** "for all large enough bounds" *)
  Definition ev {A} (F : nat -> option A) (x : A) : Prop :=
    exists f0, forall f, f0 <= f -> F f = Some x.

  Definition add_ok (ts : list atok) (v : val) : Prop :=
    forall rest, stops_add rest -> ev (fun f => p_add f (ts ++ rest)) (v, rest).
  (** [ts] is a chain of factors with product [v]. *)
  Definition chain_ok (ts : list atok) (v : val) : Prop :=
    forall acc rest X,
      ev (fun f => p_mul_tail f (vmul acc v) rest) X ->
      exists f0, forall f g, f0 <= f -> f0 <= g ->
        match p_un f (ts ++ rest) with
        | Some (w, r) => p_mul_tail g (vmul acc w) r | None => None end = Some X.
  Definition un_ok (ts : list atok) (v : val) : Prop :=
    forall rest, ev (fun f => p_un f (ts ++ rest)) (v, rest).

  Lemma un_chain ts v : un_ok ts v -> chain_ok ts v.
  Proof.
    intros H acc rest X [f1 H1]. destruct (H rest) as [f2 H2].
    exists (f1 + f2). intros f g Hf Hg. rewrite H2 by lia. apply H1. lia.
  Qed.

  Lemma mul_tail_stop v rest : stops_mul rest -> ev (fun f => p_mul_tail f v rest) (v, rest).
  Proof.
    intros H. exists 1. intros [|f] Hf; [lia|]. destruct rest as [|[] rest]; simpl in *; tauto || reflexivity.
  Qed.
  Lemma add_tail_stop v rest : stops_add rest -> ev (fun f => p_add_tail f v rest) (v, rest).
  Proof.
    intros H. exists 1. intros [|f] Hf; [lia|]. destruct rest as [|[] rest]; simpl in *; tauto || reflexivity.
  Qed.

  (** Reading a chain from the start, then continuing. *)
  Lemma chain_mul_gen ts v rest X : chain_ok ts v ->
    ev (fun f => p_mul_tail f v rest) X -> ev (fun f => p_mul f (ts ++ rest)) X.
  Proof.
    intros Hc Ht. destruct (Hc (Some 1%R) rest X) as [f0 H0].
    { destruct Ht as [f1 H1]. exists f1. intros f Hf. rewrite vmul_1. auto. }
    exists (S f0). intros [|f] Hf; [lia|]. specialize (H0 f f ltac:(lia) ltac:(lia)).
    rewrite p_mul_S. destruct (p_un f (ts ++ rest)) as [[w r]|]; [|exact H0].
    rewrite vmul_1 in H0. exact H0.
  Qed.
  Lemma chain_mul ts v rest : chain_ok ts v -> stops_mul rest ->
    ev (fun f => p_mul f (ts ++ rest)) (v, rest).
  Proof. intros Hc Hr. eapply chain_mul_gen; [exact Hc|]. apply mul_tail_stop. exact Hr. Qed.

  Lemma chain_add ts v : chain_ok ts v -> add_ok ts v.
  Proof.
    intros Hc rest Hr. destruct (chain_mul ts v rest Hc (stops_add_mul _ Hr)) as [f1 H1].
    destruct (add_tail_stop v rest Hr) as [f2 H2].
    exists (S (f1 + f2)). intros [|f] Hf; [lia|]. rewrite p_add_S.
    rewrite H1 by lia. apply H2. lia.
  Qed.

  Lemma paren_un ts v : add_ok ts v -> un_ok (KLP :: ts ++ [KRP]) v.
  Proof.
    intros H rest. destruct (H (KRP :: rest) I) as [f1 H1].
    exists (S f1). intros [|f] Hf; [lia|]. simpl app. rewrite <- app_assoc. cbn [app]. rewrite p_un_S.
    rewrite H1 by lia. reflexivity.
  Qed.

  Lemma const_un n s : un_ok (const_toks n s) (Some (if n then - num s else num s)%R).
  Proof.
    intros rest. exists 2. intros [|[|f]] Hf; try lia. destruct n; reflexivity.
  Qed.

  Lemma par_chain ts v : add_ok ts v -> (has_pm ts = false -> chain_ok ts v) ->
    chain_ok (paren_if_needed ts) v.
  Proof.
    intros Ha Hc. unfold paren_if_needed. destruct (has_pm ts) eqn:E; [|auto].
    apply un_chain, paren_un. exact Ha.
  Qed.

  (** Sum and difference. *)
  Lemma add_plus o1 v1 o2 v2 : chain_ok o1 v1 -> chain_ok o2 v2 ->
    add_ok (o1 ++ KPlus :: o2) (vadd v1 v2).
  Proof.
    intros H1 H2 rest Hr. rewrite <- app_assoc. cbn [app].
    destruct (chain_mul o1 v1 (KPlus :: o2 ++ rest) H1 I) as [f1 E1].
    destruct (chain_mul o2 v2 rest H2 (stops_add_mul _ Hr)) as [f2 E2].
    destruct (add_tail_stop (vadd v1 v2) rest Hr) as [f3 E3].
    exists (S (S (f1 + f2 + f3))). intros [|[|f]] Hf; try lia.
    rewrite p_add_S.
    rewrite E1 by lia. rewrite p_add_tail_S. rewrite E2 by lia. apply E3. lia.
  Qed.
  Lemma add_minus o1 v1 o2 v2 : chain_ok o1 v1 -> chain_ok o2 v2 ->
    add_ok (o1 ++ KMinus :: o2) (vsub v1 v2).
  Proof.
    intros H1 H2 rest Hr. rewrite <- app_assoc. cbn [app].
    destruct (chain_mul o1 v1 (KMinus :: o2 ++ rest) H1 I) as [f1 E1].
    destruct (chain_mul o2 v2 rest H2 (stops_add_mul _ Hr)) as [f2 E2].
    destruct (add_tail_stop (vsub v1 v2) rest Hr) as [f3 E3].
    exists (S (S (f1 + f2 + f3))). intros [|[|f]] Hf; try lia.
    rewrite p_add_S.
    rewrite E1 by lia. rewrite p_add_tail_S. rewrite E2 by lia. apply E3. lia.
  Qed.
  Lemma chain_times o1 v1 o2 v2 : chain_ok o1 v1 -> chain_ok o2 v2 ->
    chain_ok (o1 ++ KMul :: o2) (vmul v1 v2).
  Proof.
    intros H1 H2 acc rest X HX. rewrite <- app_assoc. cbn [app].
    apply (H1 acc (KMul :: o2 ++ rest) X).
    destruct (H2 (vmul acc v1) rest X) as [f2 E2].
    { destruct HX as [f0 E0]. exists f0. intros f Hf. rewrite vmul_assoc. auto. }
    exists (S f2). intros [|f] Hf; [lia|]. rewrite p_mul_tail_S.
    exact (E2 f f ltac:(lia) ltac:(lia)).
  Qed.
  Lemma chain_neg o v : chain_ok o v -> chain_ok (KMinus :: o) (vneg v).
  Proof.
    intros H acc rest X HX. destruct (H (vmul acc (Some (-1)%R)) rest X) as [f1 E1].
    { destruct HX as [f0 E0]. exists f0. intros f Hf. rewrite vmul_assoc, <- vneg_mul. auto. }
    exists (S f1). intros [|f] g Hf Hg; [lia|]. cbn [app]. rewrite p_un_S.
    specialize (E1 f g ltac:(lia) ltac:(lia)).
    destruct (p_un f (o ++ rest)) as [[w r]|]; [|discriminate].
    rewrite vneg_mul, <- vmul_assoc. exact E1.
  Qed.

  Lemma leaf_un s : un_ok [KLeaf s] (leaf s).
  Proof. intros rest. exists 1. intros [|f] Hf; [lia|]. reflexivity. Qed.
  Lemma null_un : un_ok [KNull] None.
  Proof. intros rest. exists 1. intros [|f] Hf; [lia|]. reflexivity. Qed.
  Lemma zero_add : add_ok [KNum "0"] (Some 0%R).
  Proof. apply chain_add, un_chain. intros rest. exists 1. intros [|f] Hf; [lia|].
    rewrite p_un_S. cbn [app]. rewrite <- num0. reflexivity. Qed.

  Lemma chain_div o1 v1 o2 v2 : un_ok o1 v1 -> un_ok o2 v2 -> add_ok (o1 ++ KDiv :: o2) (vdiv v1 v2).
  Proof.
    intros H1 H2 rest Hr. rewrite <- app_assoc. cbn [app].
    assert (Hm : ev (fun f => p_mul f (o1 ++ KDiv :: o2 ++ rest)) (vdiv v1 v2, rest)).
    { eapply chain_mul_gen; [apply un_chain; exact H1|].
      destruct (H2 rest) as [f2 E2]. destruct (mul_tail_stop (vdiv v1 v2) rest (stops_add_mul _ Hr)) as [f3 E3].
      exists (S (f2 + f3)). intros [|f] Hf; [lia|]. rewrite p_mul_tail_S. rewrite E2 by lia. apply E3. lia. }
    destruct Hm as [f1 E1]. destruct (add_tail_stop (vdiv v1 v2) rest Hr) as [f3 E3].
    exists (S (f1 + f3)). intros [|f] Hf; [lia|]. rewrite p_add_S. rewrite E1 by lia. apply E3. lia.
  Qed.

  Lemma safe_divide_un tn vn td vd : add_ok tn vn -> add_ok td vd -> un_ok (safe_divide tn td) (vdiv vn vd).
  Proof.
    intros Hn Hd rest. unfold safe_divide.
    pose proof (paren_un _ _ Hn) as Pn. pose proof (paren_un _ _ Hd) as Pd.
    set (after3 := KRP :: rest).
    set (after2 := KComma :: (KLP :: tn ++ [KRP]) ++ KDiv :: (KLP :: td ++ [KRP]) ++ after3).
    set (after1 := KComma :: KNull :: after2).
    set (after0 := KEq :: KNum "0" :: after1).
    destruct (chain_add _ _ (un_chain _ _ Pd) after0 I) as [f0 E0].
    destruct (zero_add after1 I) as [f1 E1].
    destruct (chain_add _ _ (un_chain _ _ null_un) after2 I) as [f2 E2].
    destruct (chain_div _ _ _ _ Pn Pd after3 I) as [f3 E3].
    assert (Et : ([KIf; KLP; KLP] ++ td ++ [KRP; KEq; KNum "0"; KComma; KNull; KComma; KLP] ++
                  tn ++ [KRP; KDiv; KLP] ++ td ++ [KRP; KRP]) ++ rest =
                 KIf :: KLP :: (KLP :: td ++ [KRP]) ++ after0).
    { unfold after0, after1, after2, after3. repeat (rewrite <- ?app_assoc; cbn [app]). reflexivity. }
    rewrite Et. exists (S (f0 + f1 + f2 + f3)). intros [|f] Hf; [lia|]. rewrite p_un_S.
    rewrite E0 by lia. unfold after0 at 1.
    change (KNum "0" :: after1) with ([KNum "0"] ++ after1). rewrite E1 by lia. unfold after1 at 1.
    change (KNull :: after2) with ([KNull] ++ after2). rewrite E2 by lia. unfold after2 at 1.
    specialize (E3 f ltac:(lia)). rewrite <- app_assoc in E3. cbn [app] in E3 |- *. rewrite E3. unfold after3 at 1.
    match goal with |- Some (?a, rest) = Some (?b, rest) => enough (a = b) as -> by reflexivity end.
    destruct vd as [y|]; [|destruct vn; reflexivity].
    destruct vn as [x|]; unfold vdiv, bind2; try reflexivity; cbn; destruct (Req_EM_T y 0); reflexivity.
  Qed.

  Lemma power_un ta va tb vb : add_ok ta va -> add_ok tb vb ->
    un_ok ([KPower; KLP] ++ ta ++ KComma :: tb ++ [KRP]) (bind2 power va vb).
  Proof.
    intros Ha Hb rest.
    destruct (Ha (KComma :: tb ++ KRP :: rest) I) as [f1 E1]. destruct (Hb (KRP :: rest) I) as [f2 E2].
    exists (S (f1 + f2)). intros [|f] Hf; [lia|].
    repeat (rewrite <- ?app_assoc; cbn [app]). rewrite p_un_S.
    rewrite E1 by lia. rewrite E2 by lia. reflexivity.
  Qed.
  Lemma sqrt_un ta va : add_ok ta va ->
    un_ok ([KSqrt; KLP] ++ ta ++ [KRP]) (match va with Some x => sqrtv x | None => None end).
  Proof.
    intros Ha rest. destruct (Ha (KRP :: rest) I) as [f1 E1].
    exists (S f1). intros [|f] Hf; [lia|].
    repeat (rewrite <- ?app_assoc; cbn [app]). rewrite p_un_S.
    rewrite E1 by lia. reflexivity.
  Qed.

  Lemma gen_ok :
    (forall e, add_ok (gen e) (value e) /\ (has_pm (gen e) = false -> chain_ok (gen e) (value e))) /\
    (forall o, chain_ok (gen_par o) (ovalue o) /\ add_ok (gen_raw o) (ovalue o)).
  Proof.
    apply aexp_operand_ind; cbn [gen gen_par gen_raw S_SqlArith.value S_SqlArith.ovalue].
    - intros s. pose proof (un_chain _ _ (leaf_un s)) as H. split; [apply chain_add; exact H|auto].
    - intros a [Ha _] b [Hb _]. split; [apply add_plus; assumption|].
      rewrite has_pm_app. simpl. rewrite orb_true_r. discriminate.
    - intros a [Ha _] b [Hb _]. split; [apply add_minus; assumption|].
      rewrite has_pm_app. simpl. rewrite orb_true_r. discriminate.
    - intros a [Ha _] b [Hb _]. pose proof (chain_times _ _ _ _ Ha Hb) as H.
      split; [apply chain_add; exact H|auto].
    - intros a [_ Ha] b [_ Hb]. pose proof (un_chain _ _ (safe_divide_un _ _ _ _ Ha Hb)) as H.
      split; [apply chain_add; exact H|auto].
    - intros a [_ Ha] b [_ Hb]. pose proof (un_chain _ _ (power_un _ _ _ _ Ha Hb)) as H.
      split; [apply chain_add; exact H|auto].
    - intros a [Ha _]. pose proof (un_chain _ _ (sqrt_un _ _ Ha)) as H.
      split; [apply chain_add; exact H|auto].
    - intros a [Ha Hc]. pose proof (chain_neg _ _ (par_chain _ _ Ha Hc)) as H.
      split; [apply chain_add; exact H|auto].
    - intros e [Ha Hc]. split; [apply par_chain; assumption|exact Ha].
    - intros n s. pose proof (un_chain _ _ (const_un n s)) as H. split; [exact H|apply chain_add; exact H].
  Qed.

  Lemma gen_evaluates e : evaluates_to leaf num power sqrtv (gen e) (value e).
  Proof.
    destruct (proj1 gen_ok e) as [H _]. destruct (H [] I) as [f0 E]. exists f0. intros f Hf.
    rewrite <- (app_nil_r (gen e)). apply E. exact Hf.
  Qed.
End Proofs.

Lemma evaluates_unique leaf num power sqrtv ts v w :
  evaluates_to leaf num power sqrtv ts v -> evaluates_to leaf num power sqrtv ts w -> v = w.
Proof.
  intros [f1 H1] [f2 H2]. specialize (H1 (f1 + f2) ltac:(lia)). specialize (H2 (f1 + f2) ltac:(lia)). congruence.
Qed.

(** FULL JOIN of two queries. *)
From Coq Require Import Reals List Bool String Arith Permutation Sorted Lia Lra.
From Verif Require Import M_Num M_Frame L_Frame M_Ops S_Ops L_OpsA L_OpsB L_OpsC M_SqlGlobal L_SqlGlobal M_SqlLeaf S_SqlLeaf L_SqlLeaf L_SqlLeaf2 M_SqlOps S_SqlOps L_SqlOps L_SqlOps2 L_SqlOps3 L_SqlOps4 L_SqlOps5 L_SqlOps6 L_SqlBin L_SqlBin2.
Import ListNotations.
Open Scope string_scope.
Open Scope list_scope.

(** ** Part of a key *)
Definition sproj (idx sub : list string) (K : skey) : skey := List.map (fun c => match assoc c (combine idx K) with Some s => s | None => None end) sub.
Lemma assoc_in (idx : list string) {A} : forall (k : list A) c, List.length k = List.length idx -> In c idx -> exists s, assoc c (combine idx k) = Some s.
Proof.
  induction idx as [|b idx IH]; intros [|x k] c Hl Hc; try discriminate; [destruct Hc|]. cbn [combine assoc]. destruct (String.eqb b c) eqn:E; [eauto|].
  apply IH; [now injection Hl|]. destruct Hc as [->|Hc]; [rewrite String.eqb_refl in E; discriminate|exact Hc].
Qed.
Lemma assoc_map_snd (idx : list string) {A B} (f : A -> B) : forall (k : list A) c, assoc c (combine idx (List.map f k)) = option_map f (assoc c (combine idx k)).
Proof. induction idx as [|b idx IH]; intros [|x k] c; try reflexivity. cbn [combine assoc List.map]. destruct (String.eqb b c); [reflexivity|apply IH]. Qed.
Lemma sproj_some idx sub k : List.length k = List.length idx -> incl sub idx -> sproj idx sub (List.map Some k) = List.map Some (project idx sub k).
Proof.
  intros Hl Hs. unfold sproj, project. rewrite map_map. apply map_ext_in. intros c Hc. rewrite assoc_map_snd. destruct (assoc_in idx k c Hl (Hs _ Hc)) as [s ->]. reflexivity.
Qed.
Lemma assoc_labels (idx : list string) (r : row) c : In c idx -> assoc c (combine idx (List.map (fun c => label (r c)) idx)) = Some (label (r c)).
Proof.
  induction idx as [|b idx IH]; intros Hc; [destruct Hc|]. cbn [combine assoc List.map]. destruct (String.eqb b c) eqn:E; [apply String.eqb_eq in E; now subst|].
  apply IH. destruct Hc as [->|Hc]; [rewrite String.eqb_refl in E; discriminate|exact Hc].
Qed.
Lemma assoc_out (idx : list string) {A} : forall (k : list A) c, ~ In c idx -> assoc c (combine idx k) = None.
Proof.
  induction idx as [|b idx IH]; intros [|x k] c Hc; try reflexivity. cbn [combine assoc]. destruct (String.eqb b c) eqn:E; [apply String.eqb_eq in E; subst; exfalso; apply Hc; now left|].
  apply IH. intros H. apply Hc. now right.
Qed.
Lemma sproj_labels idx sub r : incl sub idx -> List.map (fun c => label (r c)) sub = sproj idx sub (List.map (fun c => label (r c)) idx).
Proof. intros H. unfold sproj. apply map_ext_in. intros c Hc. now rewrite assoc_labels by auto. Qed.
Lemma project_id idx : forall k, NoDup idx -> List.length k = List.length idx -> project idx idx k = k.
Proof.
  unfold project. induction idx as [|b idx IH]; intros [|x k] Hd Hl; try discriminate; [reflexivity|]. inversion Hd; subst. cbn [combine List.map assoc]. rewrite String.eqb_refl. f_equal.
  etransitivity; [|apply (IH k); [assumption|now injection Hl]]. apply map_ext_in. intros c Hc. destruct (String.eqb b c) eqn:E; [apply String.eqb_eq in E; subst; contradiction|reflexivity].
Qed.
Lemma project_length idx sub k : List.length (project idx sub k) = List.length sub. Proof. apply map_length. Qed.

(** ** Lists *)
Lemma flat_map_swap {A B C} (f : A -> B -> C) (p : A -> B -> bool) l1 l2 :
  Permutation (flat_map (fun a => List.map (f a) (filter (p a) l2)) l1) (flat_map (fun b => List.map (fun a => f a b) (filter (fun a => p a b) l1)) l2).
Proof.
  induction l1 as [|a l1 IH]; cbn [flat_map filter].
  - replace (flat_map _ l2) with (@nil C); [constructor|]. induction l2 as [|b l2 IH]; [reflexivity|exact IH].
  - rewrite IH. clear IH. induction l2 as [|b l2 IH]; [constructor|]. cbn [flat_map filter List.map]. destruct (p a b); cbn [List.map app].
    + constructor. rewrite app_assoc. rewrite (Permutation_app_comm (List.map (f a) (filter (p a) l2))). rewrite <- app_assoc. apply Permutation_app_head. exact IH.
    + rewrite app_assoc. rewrite (Permutation_app_comm (List.map (f a) (filter (p a) l2))). rewrite <- app_assoc. apply Permutation_app_head. exact IH.
Qed.
Lemma one_or_left {A B} (f : A -> list B) (g h : A -> B) (p : A -> bool) l : (forall a, In a l -> if p a then f a = [] /\ g a = h a else f a = [h a]) ->
  Permutation (flat_map f l ++ List.map g (filter p l)) (List.map h l).
Proof.
  induction l as [|a l IH]; intros H; [constructor|]. cbn [flat_map filter List.map]. pose proof (H a (or_introl eq_refl)) as Ha. assert (forall a, In a l -> if p a then f a = [] /\ g a = h a else f a = [h a]) as Hl by (intros a' Ha'; apply H; now right).
  destruct (p a).
  - destruct Ha as [-> E]. cbn [app List.map]. rewrite E. rewrite <- Permutation_middle. constructor. auto.
  - rewrite Ha. cbn [app]. constructor. auto.
Qed.
Lemma existsb_perm {A} (p : A -> bool) l l' : Permutation l l' -> existsb p l = existsb p l'.
Proof. induction 1 as [|x l l' _ IH|x y l|l l' l'' _ IH1 _ IH2]; cbn; [reflexivity|now rewrite IH|destruct (p x), (p y); reflexivity|congruence]. Qed.
Lemma existsb_map {A B} (f : A -> B) p l : existsb p (List.map f l) = existsb (fun a => p (f a)) l.
Proof. induction l as [|a l IH]; [reflexivity|]. cbn. now rewrite IH. Qed.
Lemma existsb_ext_in {A} (p q : A -> bool) l : (forall a, In a l -> p a = q a) -> existsb p l = existsb q l.
Proof. induction l as [|a l IH]; intros H; [reflexivity|]. cbn. rewrite H by now left. f_equal. apply IH. intros b Hb. apply H. now right. Qed.

Lemma map_flat_map {A B C} (g : B -> C) (h : A -> list B) l : List.map g (flat_map h l) = flat_map (fun a => List.map g (h a)) l.
Proof. induction l as [|a l IH]; [reflexivity|]. cbn. now rewrite map_app, IH. Qed.
Lemma mk_sym : forall K K', mk K K' = mk K' K.
Proof.
  intros K. induction K as [|x K IH]; intros [|y K']; try reflexivity. unfold mk in *. cbn. rewrite IH. f_equal. destruct x as [x|], y as [y|]; try reflexivity. apply String.eqb_sym.
Qed.

(** ** Frames *)
Section Frames.
  Variables (hs : option R -> option R -> option R) (h : num -> num -> num) (idx sub : list string) (F G : rframe).
  Hypothesis HNF : NoDup (List.map fst F).
  Hypothesis HNG : NoDup (List.map fst G).
  Hypothesis HLF : Forall (fun r => List.length (fst r) = List.length idx) F.
  Hypothesis HLG : Forall (fun r => List.length (fst r) = List.length sub) G.
  Hypothesis Hsub : incl sub idx.
  Hypothesis Hh : forall k x, In (k, x) F -> unf (h x (lookup (project idx sub k) G)) = hs (unf x) (unf (lookup (project idx sub k) G)).
  Hypothesis Hne : sub = [] -> G <> [].

  Lemma partner (kv : list string * num) : In kv F ->
    filter (fun u => mk (sproj idx sub (fst (enc kv))) (fst u)) (List.map enc G) = List.map enc (filter (fun u => key_eqb (project idx sub (fst kv)) (fst u)) G).
  Proof.
    intros Hi. rewrite filter_map_comm. f_equal. apply filter_ext_in. intros u Hu. unfold enc. cbn [fst snd]. rewrite Forall_forall in HLF, HLG.
    rewrite sproj_some by (auto; now apply HLF). apply mk_some. rewrite project_length. symmetry. now apply HLG.
  Qed.
  Lemma partner_lookup k : if existsb (fun u => key_eqb k (fst u)) G then filter (fun u => key_eqb k (fst u)) G = [(k, lookup k G)] else filter (fun u => key_eqb k (fst u)) G = [] /\ lookup k G = NaN.
  Proof.
    destruct (existsb _ G) eqn:E.
    - apply existsb_exists in E as ([k' b] & Hb & Ek). cbn [fst] in Ek. apply key_eqb_eq in Ek. subst k'. rewrite (lookup_In k b G HNG Hb).
      clear - HNG Hb. induction G as [|[k' b'] G' IH]; [destruct Hb|]. cbn [filter fst]. cbn in HNG. inversion HNG as [|? ? Hn HN]; subst. destruct Hb as [Eb|Hb].
      + injection Eb as -> ->. rewrite (proj2 (key_eqb_eq k k) eq_refl). f_equal. apply filter_none. intros u Hu. apply not_true_is_false. intros E. apply key_eqb_eq in E. apply Hn. rewrite E. now apply in_map.
      + destruct (key_eqb k k') eqn:E; [|now apply IH]. apply key_eqb_eq in E. subst. exfalso. apply Hn. exact (in_map fst _ _ Hb).
    - split.
      + apply filter_none. intros u Hu. apply not_true_is_false. intros Eu. apply not_true_iff_false in E. apply E. apply existsb_exists. eauto.
      + apply lookup_None. intros Hi. apply in_map_iff in Hi as ([k' b] & <- & Hb). apply not_true_iff_false in E. apply E. apply existsb_exists. exists (k', b). split; [exact Hb|]. now apply key_eqb_eq.
  Qed.
  Lemma join_frames :
    Permutation (flat_map (fun s => List.map (fun u => (fst s, hs (snd s) (snd u))) (filter (fun u => mk (sproj idx sub (fst s)) (fst u)) (List.map enc G))) (List.map enc F) ++
                 match sub with [] => [] | _ => List.map (fun s => (fst s, hs (snd s) None)) (filter (fun s => negb (existsb (fun u => mk (sproj idx sub (fst s)) (fst u)) (List.map enc G))) (List.map enc F)) end)
                (List.map enc (List.map (fun kv => (fst kv, h (snd kv) (lookup (project idx sub (fst kv)) G))) F)).
  Proof.
    assert (sub = [] -> forall a, In a F -> existsb (fun u => key_eqb (project idx sub (fst a)) (fst u)) G = true) as HC.
    { intros E a Ha. specialize (Hne E). destruct G as [|u G']; [congruence|]. cbn [existsb]. rewrite Forall_forall in HLG. specialize (HLG u (or_introl eq_refl)). subst sub. destruct (fst u); [reflexivity|discriminate]. }
    transitivity (flat_map (fun kv => List.map (fun u => (fst (enc kv), hs (snd (enc kv)) (snd u))) (List.map enc (filter (fun u => key_eqb (project idx sub (fst kv)) (fst u)) G))) F ++
                  List.map (fun kv => (fst (enc kv), hs (snd (enc kv)) None)) (filter (fun kv => negb (existsb (fun u => key_eqb (project idx sub (fst kv)) (fst u)) G)) F)).
    - apply Permutation_app.
      + rewrite flat_map_map. erewrite flat_map_ext_in; [apply Permutation_refl|]. intros kv Hkv. cbn beta. now rewrite partner.
      + assert (filter (fun s => negb (existsb (fun u => mk (sproj idx sub (fst s)) (fst u)) (List.map enc G))) (List.map enc F) = List.map enc (filter (fun kv => negb (existsb (fun u => key_eqb (project idx sub (fst kv)) (fst u)) G)) F)) as E.
        { rewrite filter_map_comm. f_equal. apply filter_ext_in. intros kv Hkv. f_equal. rewrite existsb_map. apply existsb_ext_in. intros u Hu. unfold enc. cbn [fst snd]. rewrite Forall_forall in HLF, HLG.
          rewrite sproj_some by (auto; now apply HLF). apply mk_some. rewrite project_length. symmetry. now apply HLG. }
        destruct sub as [|c l] eqn:Es.
        * replace (filter _ F) with (@nil (list string * num)); [constructor|]. symmetry. apply filter_none. intros kv Hkv. now rewrite (HC eq_refl kv Hkv).
        * rewrite E, map_map. apply Permutation_refl.
    - rewrite map_map. apply one_or_left. intros [k x] Hkx. cbn [fst snd enc]. pose proof (partner_lookup (project idx sub k)) as HP. destruct (existsb _ G) eqn:E; cbn [negb].
      + rewrite HP. cbn [List.map]. unfold enc. cbn [fst snd]. now rewrite Hh.
      + destruct HP as [-> EN]. split; [reflexivity|]. unfold enc. cbn [fst snd]. rewrite Hh by exact Hkx. now rewrite EN.
  Qed.
End Frames.

(** ** The query *)
Definition joined (op : op2) (name : string) (idx us : list string) (v0 v1 : string) (q0 q1 : sqlq) : sqlq :=
  sel1 idx name (vop op (VRef (Of "CompositeMetricTable0" v0)) (VRef (Of "CompositeMetricTable1" v1))) (Full "CompositeMetricTable0" q0 "CompositeMetricTable1" q1 us) None.
Lemma run_src_full parse srt t1 q1 t2 q2 us t : run_src parse srt (Full t1 q1 t2 q2 us) t = full_join t1 (all_columns q1) t2 us (run_sql parse srt q1 t) (run_sql parse srt q2 t).
Proof. reflexivity. Qed.
Lemma label_coalesce x y : label (coalesce x y) = match x with Null => label y | _ => label x end.
Proof. now destruct x. Qed.
Lemma matched_label us r0 r1 c : match_using us r0 r1 = true -> In c us -> label (coalesce (r0 c) (r1 c)) = label (r0 c) /\ label (coalesce (r0 c) (r1 c)) = label (r1 c).
Proof.
  intros H Hc. unfold match_using in H. rewrite forallb_forall in H. specialize (H c Hc). rewrite label_coalesce. destruct (r0 c) as [s| | |]; cbn [label] in *; try discriminate.
  destruct (label (r1 c)) as [s'|]; [|discriminate]. apply String.eqb_eq in H. subst. auto.
Qed.

Lemma joined_scoped op name idx us idx0 idx1 v0 v1 q0 q1 : shape q0 idx0 v0 -> shape q1 idx1 v1 -> well_scoped q0 = true -> well_scoped q1 = true -> ~ In v0 idx -> ~ In v1 idx ->
  (idx = idx0 /\ us = idx1 /\ incl idx1 idx0) \/ (idx = idx1 /\ us = idx0 /\ incl idx0 idx1) -> well_scoped (joined op name idx us v0 v1 q0 q1) = true.
Proof.
  intros S0 S1 W0 W1 Hv0 Hv1 HU. pose proof (shape_all _ _ _ S0) as all0. pose proof (shape_all _ _ _ S1) as all1. apply scoped_sel1.
  - intros c Hc. cbn [in_source]. rewrite all0, all1. destruct (mem c us) eqn:Ec; [reflexivity|]. cbn [orb]. apply mem_false in Ec.
    destruct HU as [(-> & -> & HU)|(-> & -> & HU)].
    + assert (mem c (idx0 ++ [v0]) = true) as -> by (apply mem_in, in_or_app; auto). assert (mem c (idx1 ++ [v1]) = false) as ->; [|reflexivity].
      apply mem_false. intros H. apply in_app_or in H as [H|[<-|[]]]; contradiction.
    + assert (mem c (idx1 ++ [v1]) = true) as -> by (apply mem_in, in_or_app; auto). assert (mem c (idx0 ++ [v0]) = false) as ->; [|reflexivity].
      apply mem_false. intros H. apply in_app_or in H as [H|[<-|[]]]; contradiction.
  - intros r Hr. rewrite vrefs_vop in Hr. cbn in Hr. destruct Hr as [<-|[<-|[]]]; cbn [in_source]; rewrite all0, all1.
    + assert (mem v0 (idx0 ++ [v0]) = true) as -> by (apply mem_in, in_or_app; right; now left). reflexivity.
    + assert (mem v1 (idx1 ++ [v1]) = true) as -> by (apply mem_in, in_or_app; right; now left). reflexivity.
  - intros r [].
  - cbn [scoped_src]. rewrite W0, W1. cbn [andb]. rewrite forallb_forall. intros c Hc. rewrite all0, all1.
    destruct HU as [(-> & -> & HU)|(-> & -> & HU)]; apply andb_true_intro; split; apply mem_in, in_or_app; left; auto.
Qed.

Section Join.
  Variables (parse : string -> cond) (srt : list okey -> list env -> list env) (t : stable).
  Variables (op : op2) (name : string) (idx us idx0 idx1 : list string) (v0 v1 : string) (q0 q1 : sqlq) (F0 F1 : rframe).
  Hypothesis I0 : inv parse srt t q0 idx0 v0 F0.
  Hypothesis I1 : inv parse srt t q1 idx1 v1 F1.
  Hypothesis Hname : ~ In name idx.
  Hypothesis Hv0 : ~ In v0 idx.
  Hypothesis Hv1 : ~ In v1 idx.
  Let R0 := run_sql parse srt q0 t.
  Let R1 := run_sql parse srt q1 t.
  Let env2 := full_env "CompositeMetricTable0" (all_columns q0) "CompositeMetricTable1" us.
  Let val (e : env) : option R := opS op (number (e (Of "CompositeMetricTable0" v0))) (number (e (Of "CompositeMetricTable1" v1))).

  Lemma joined_rows : obs idx name (run_sql parse srt (joined op name idx us v0 v1 q0 q1) t) =
    List.map (fun e => (key_of idx e, val e)) (full_join "CompositeMetricTable0" (all_columns q0) "CompositeMetricTable1" us R0 R1).
  Proof.
    unfold joined. rewrite run_sel1; [|exact Hname|now destruct op]. cbn zeta.
    replace (orders (vop op (VRef (Of "CompositeMetricTable0" v0)) (VRef (Of "CompositeMetricTable1" v1)))) with (@nil (list okey)) by now destruct op.
    rewrite where_none, run_src_full. fold R0 R1.
    rewrite <- (prefixes_snd (fun e => (key_of idx e, val e)) _ []). apply map_ext. intros p. f_equal. rewrite value_vop. reflexivity.
  Qed.
  Lemma env2_val r0 r1 : val (env2 r0 r1) = opS op (number (r0 v0)) (number (r1 v1)).
  Proof. reflexivity. Qed.
  Lemma val_none_l r1 : val (env2 no_row r1) = opS op None (number (r1 v1)). Proof. reflexivity. Qed.
  Lemma val_none_r r0 : val (env2 r0 no_row) = opS op (number (r0 v0)) None. Proof. reflexivity. Qed.

  Definition JL (K1 : skey -> skey) (S T : list (skey * option R)) : list (skey * option R) :=
    (flat_map (fun s => List.map (fun u => (fst s, opS op (snd s) (snd u))) (filter (fun u => mk (sproj idx0 us (fst s)) (fst u)) T)) S ++
     match us with [] => [] | _ => List.map (fun s => (fst s, opS op (snd s) None)) (filter (fun s => negb (existsb (fun u => mk (sproj idx0 us (fst s)) (fst u)) T)) S) end) ++
    match us with [] => [] | _ => List.map (fun u => (K1 (fst u), opS op None (snd u))) (filter (fun u => negb (existsb (fun s => mk (sproj idx0 us (fst s)) (fst u)) S)) T) end.
  Definition JR (K0 : skey -> skey) (S T : list (skey * option R)) : list (skey * option R) :=
    (flat_map (fun u => List.map (fun s => (fst u, opS op (snd s) (snd u))) (filter (fun s => mk (sproj idx1 us (fst u)) (fst s)) S)) T ++
     match us with [] => [] | _ => List.map (fun u => (fst u, opS op None (snd u))) (filter (fun u => negb (existsb (fun s => mk (sproj idx1 us (fst u)) (fst s)) S)) T) end) ++
    match us with [] => [] | _ => List.map (fun s => (K0 (fst s), opS op (snd s) None)) (filter (fun s => negb (existsb (fun u => mk (sproj idx1 us (fst u)) (fst s)) T)) S) end.
  Lemma JL_perm K1 S S' T T' : Permutation S S' -> Permutation T T' -> Permutation (JL K1 S T) (JL K1 S' T').
  Proof.
    intros HS HT. unfold JL. apply Permutation_app; [apply Permutation_app|].
    - rewrite (flat_map_perm _ _ _ HS). apply flat_map_perm_ext. intros s. apply Permutation_map, filter_perm, HT.
    - destruct us as [|c l]; [constructor|]. apply Permutation_map. rewrite (filter_perm _ _ _ HS). erewrite filter_ext; [apply Permutation_refl|]. intros s. cbn beta. f_equal. now apply existsb_perm.
    - destruct us as [|c l]; [constructor|]. apply Permutation_map. rewrite (filter_perm _ _ _ HT). erewrite filter_ext; [apply Permutation_refl|]. intros s. cbn beta. f_equal. now apply existsb_perm.
  Qed.
  Lemma JR_perm K0 S S' T T' : Permutation S S' -> Permutation T T' -> Permutation (JR K0 S T) (JR K0 S' T').
  Proof.
    intros HS HT. unfold JR. apply Permutation_app; [apply Permutation_app|].
    - rewrite (flat_map_perm _ _ _ HT). apply flat_map_perm_ext. intros s. apply Permutation_map, filter_perm, HS.
    - destruct us as [|c l]; [constructor|]. apply Permutation_map. rewrite (filter_perm _ _ _ HT). erewrite filter_ext; [apply Permutation_refl|]. intros s. cbn beta. f_equal. now apply existsb_perm.
    - destruct us as [|c l]; [constructor|]. apply Permutation_map. rewrite (filter_perm _ _ _ HS). erewrite filter_ext; [apply Permutation_refl|]. intros s. cbn beta. f_equal. now apply existsb_perm.
  Qed.
  Lemma all0 : all_columns q0 = idx0 ++ [v0]. Proof. apply shape_all, I0. Qed.
  Lemma all1 : all_columns q1 = idx1 ++ [v1]. Proof. apply shape_all, I1. Qed.

  (** the left table has all index columns *)
  Lemma join_left : idx = idx0 -> us = idx1 -> incl idx1 idx0 ->
    obs idx name (run_sql parse srt (joined op name idx us v0 v1 q0 q1) t) = JL (sproj idx1 idx0) (obs idx0 v0 R0) (obs idx1 v1 R1).
  Proof.
    intros Ei Eu Hi. rewrite joined_rows. unfold full_join. fold env2. unfold JL.
    assert (forall r0 r1, match_using us r0 r1 = mk (sproj idx0 us (List.map (fun c => label (r0 c)) idx0)) (List.map (fun c => label (r1 c)) idx1)) as HM.
    { intros r0 r1. rewrite match_using_mk, <- sproj_labels by (now subst us). now subst us. }
    assert (forall r0 r1, match_using us r0 r1 = true \/ r1 = no_row -> key_of idx (env2 r0 r1) = List.map (fun c => label (r0 c)) idx0) as HK.
    { intros r0 r1 H. subst idx. unfold key_of. apply map_ext_in. intros c Hc. unfold env2, full_env. destruct (mem c us) eqn:Ec.
      - apply mem_in in Ec. destruct H as [H| ->]; [apply (matched_label us r0 r1 c H Ec)|]. now destruct (r0 c).
      - rewrite all0. assert (mem c (idx0 ++ [v0]) = true) as -> by (apply mem_in, in_or_app; auto). reflexivity. }
    assert (forall r1, key_of idx (env2 no_row r1) = sproj idx1 idx0 (List.map (fun c => label (r1 c)) idx1)) as HK1.
    { intros r1. subst idx. unfold key_of, sproj. apply map_ext_in. intros c Hc. unfold env2, full_env. destruct (mem c us) eqn:Ec.
      - apply mem_in in Ec. subst us. rewrite assoc_labels by exact Ec. reflexivity.
      - rewrite all0. assert (mem c (idx0 ++ [v0]) = true) as -> by (apply mem_in, in_or_app; auto). apply mem_false in Ec. subst us. rewrite assoc_out by exact Ec. reflexivity. }
    rewrite map_app, <- app_assoc. f_equal.
    - rewrite map_flat_map. unfold obs. rewrite flat_map_map. apply flat_map_ext_in. intros r0 _. cbn [fst snd]. rewrite filter_map_comm, map_map.
      rewrite map_map. erewrite (filter_ext (fun x => mk _ _)) by (intros r1; symmetry; apply HM). apply map_ext_in. intros r1 Hr. apply filter_In in Hr as [_ Hr]. cbn [fst snd]. f_equal. apply HK. auto.
    - destruct us as [|c l] eqn:Eus; [reflexivity|]. rewrite <- Eus in *. rewrite map_app. f_equal.
      + unfold obs. rewrite filter_map_comm, !map_map. cbn [fst snd].
        erewrite filter_ext; [apply map_ext_in|].
        * intros r0 _. f_equal. apply HK. auto.
        * intros r0. cbn beta. f_equal. rewrite existsb_map. apply existsb_ext_in. intros r1 _. apply HM.
      + unfold obs. rewrite filter_map_comm, !map_map. cbn [fst snd].
        erewrite filter_ext; [apply map_ext_in|].
        * intros r1 _. f_equal. apply HK1.
        * intros r1. cbn beta. f_equal. rewrite existsb_map. apply existsb_ext_in. intros r0 _. apply HM.
  Qed.
  (** the right table has more of them *)
  Lemma join_right : idx = idx1 -> us = idx0 -> incl idx0 idx1 ->
    Permutation (obs idx name (run_sql parse srt (joined op name idx us v0 v1 q0 q1) t)) (JR (sproj idx0 idx1) (obs idx0 v0 R0) (obs idx1 v1 R1)).
  Proof.
    intros Ei Eu Hi. rewrite joined_rows. unfold full_join. fold env2. unfold JR.
    assert (forall r0 r1, match_using us r0 r1 = mk (sproj idx1 us (List.map (fun c => label (r1 c)) idx1)) (List.map (fun c => label (r0 c)) idx0)) as HM.
    { intros r0 r1. rewrite match_using_mk, mk_sym, <- sproj_labels by (now subst us). now subst us. }
    assert (forall c, In c idx1 -> mem c us = false -> mem c (all_columns q0) = false) as HC.
    { intros c Hc Ec. rewrite all0. apply mem_false. apply mem_false in Ec. subst us idx. intros H. apply in_app_or in H as [H|[<-|[]]]; contradiction. }
    assert (forall r0 r1, match_using us r0 r1 = true \/ r0 = no_row -> key_of idx (env2 r0 r1) = List.map (fun c => label (r1 c)) idx1) as HK.
    { intros r0 r1 H. subst idx. unfold key_of. apply map_ext_in. intros c Hc. unfold env2, full_env. destruct (mem c us) eqn:Ec.
      - apply mem_in in Ec. destruct H as [H| ->]; [apply (matched_label us r0 r1 c H Ec)|]. reflexivity.
      - now rewrite (HC c Hc Ec). }
    assert (forall r0, key_of idx (env2 r0 no_row) = sproj idx0 idx1 (List.map (fun c => label (r0 c)) idx0)) as HK1.
    { intros r0. subst idx. unfold key_of, sproj. apply map_ext_in. intros c Hc. unfold env2, full_env. destruct (mem c us) eqn:Ec.
      - apply mem_in in Ec. subst us. rewrite assoc_labels by exact Ec. now destruct (r0 c).
      - rewrite (HC c Hc Ec). apply mem_false in Ec. subst us. rewrite assoc_out by exact Ec. reflexivity. }
    rewrite map_app, <- app_assoc. apply Permutation_app.
    - rewrite map_flat_map. erewrite flat_map_ext_in by (intros r0 _; rewrite map_map; reflexivity). rewrite (flat_map_swap (fun r0 r1 => (key_of idx (env2 r0 r1), val (env2 r0 r1)))).
      unfold obs. rewrite flat_map_map. erewrite flat_map_ext_in; [apply Permutation_refl|]. intros r1 _. cbn [fst snd]. rewrite filter_map_comm, map_map.
      erewrite (filter_ext (fun x => mk _ _)) by (intros r0; symmetry; apply HM). apply map_ext_in. intros r0 Hr. apply filter_In in Hr as [_ Hr]. cbn [fst snd]. f_equal. apply HK. auto.
    - destruct us as [|c l] eqn:Eus; [constructor|]. rewrite <- Eus in *. rewrite map_app, Permutation_app_comm. apply Permutation_app.
      + unfold obs. rewrite filter_map_comm, !map_map. cbn [fst snd].
        erewrite filter_ext; [erewrite map_ext_in; [apply Permutation_refl|]|].
        * intros r1 _. cbn beta. f_equal. apply HK. auto.
        * intros r1. cbn beta. f_equal. rewrite existsb_map. apply existsb_ext_in. intros r0 _. apply HM.
      + unfold obs. rewrite filter_map_comm, !map_map. cbn [fst snd].
        erewrite filter_ext; [erewrite map_ext_in; [apply Permutation_refl|]|].
        * intros r0 _. cbn beta. f_equal. apply HK1.
        * intros r0. cbn beta. f_equal. rewrite existsb_map. apply existsb_ext_in. intros r1 _. apply HM.
  Qed.

  Hypothesis Hne0 : us = [] -> F0 <> [].
  Hypothesis Hne1 : us = [] -> F1 <> [].
  Hypothesis Hfit : bin_fits op idx0 idx1 F0 F1.

  Lemma joined_same : idx0 = idx -> idx1 = idx -> us = idx -> inv parse srt t (joined op name idx us v0 v1 q0 q1) idx name (align op F0 F1).
  Proof.
    intros E0 E1 Eu. destruct I0 as (S0 & W0 & P0 & N0 & D0 & L0). destruct I1 as (S1 & W1 & P1 & N1 & D1 & L1). destruct Hfit as (_ & _ & Hdiv).
    assert (NoDup idx) as Hd by (rewrite <- E0; apply S0).
    assert (op = OpDiv -> forall k, List.length k = List.length idx -> lookup k F1 = Fin 0 -> lookup k F0 = Fin 0 \/ lookup k F0 = NaN) as Hdiv'.
    { intros E k Hk. specialize (Hdiv E k). rewrite E0, E1, Nat.ltb_irrefl in Hdiv. rewrite project_id in Hdiv by auto. auto. }
    assert (forall k, In k (List.map fst F0) \/ In k (List.map fst F1) -> List.length k = List.length idx) as HK.
    { rewrite Forall_forall in L0, L1. intros k [Hk|Hk]; apply in_map_iff in Hk as (r & <- & Hr); [rewrite (L0 r Hr)|rewrite (L1 r Hr)]; congruence. }
    assert (forall k, List.length k = List.length idx -> unf (num_op op (lookup k F0) (lookup k F1)) = opS op (unf (lookup k F0)) (unf (lookup k F1)) /\ no_inf (num_op op (lookup k F0) (lookup k F1))) as HO.
    { intros k Hk. apply op_agree; auto using lookup_no_inf. }
    pose proof (sort_uniq_keys _ _ D0 D1) as HS.
    split; [apply shape_sel1; auto|]. split; [apply (joined_scoped _ _ _ _ idx0 idx1); auto; left; rewrite E0, E1; repeat split; auto; intros x; auto|]. split; [|split; [|split]].
    - rewrite join_left by (rewrite ?E0, ?E1; auto; intros x; auto). etransitivity; [apply (JL_perm _ _ _ _ _ P0 P1)|]. unfold JL.
      unfold align. rewrite (Permutation_map (fun k => (k, num_op op (lookup k F0) (lookup k F1))) HS), !map_app. apply Permutation_app.
      + rewrite (join_frames (opS op) (num_op op) idx0 us F0 F1); auto.
        * rewrite !map_map. erewrite map_ext_in; [apply Permutation_refl|]. intros [k x] Hi. unfold enc. cbn [fst snd]. rewrite (lookup_In k x F0 D0 Hi). rewrite E0, Eu, project_id; auto. apply HK. left. exact (in_map fst _ _ Hi).
        * rewrite Eu, <- E1; exact L1.
        * rewrite E0, Eu. intros x; auto.
        * intros k x Hi. rewrite E0, Eu, project_id; auto; [|apply HK; left; exact (in_map fst _ _ Hi)]. rewrite <- (lookup_In k x F0 D0 Hi). apply HO, HK. left. exact (in_map fst _ _ Hi).
      + assert (forall k, In k (List.map fst F1) -> existsb (fun s => mk (sproj idx0 us (fst s)) (List.map Some k)) (List.map enc F0) = if in_dec (list_eq_dec string_dec) k (List.map fst F0) then true else false) as HX.
        { intros k Hk. rewrite existsb_map. destruct (in_dec _ k _) as [Y|N].
          - apply existsb_exists. apply in_map_iff in Y as ([k' x] & <- & Hi). exists (k', x). split; [exact Hi|]. unfold enc. cbn [fst]. assert (List.length k' = List.length idx) as Hl by (apply HK; auto).
            rewrite E0, Eu, sproj_some by (auto; intros z; auto). rewrite project_id by auto. rewrite mk_some by reflexivity. now apply key_eqb_eq.
          - apply not_true_is_false. intros E. apply N. apply existsb_exists in E as ([k' x] & Hi & E). unfold enc in E. cbn [fst] in E. assert (List.length k' = List.length idx) as Hl by (apply HK; left; exact (in_map fst _ _ Hi)).
            rewrite E0, Eu, sproj_some in E by (auto; intros z; auto). rewrite project_id in E by auto. rewrite mk_some in E by (rewrite Hl; symmetry; auto). apply key_eqb_eq in E. subst. exact (in_map fst _ _ Hi). }
        destruct us as [|c l] eqn:Eus.
        * replace (filter _ (List.map fst F1)) with (@nil key); [constructor|]. symmetry. apply filter_none. intros k Hk. destruct (in_dec _ k _) as [Y|N]; [reflexivity|]. exfalso. apply N.
          assert (List.length k = List.length idx) as Hl by (apply HK; auto). rewrite <- Eu in Hl. destruct k; [|discriminate]. specialize (Hne0 eq_refl). destruct F0 as [|[k' x] F']; [congruence|]. left.
          assert (List.length k' = List.length idx) as Hl' by (apply HK; left; now left). rewrite <- Eu in Hl'. destruct k'; [reflexivity|discriminate].
        * rewrite <- Eus in *. rewrite map_map. rewrite filter_map_comm, map_map. rewrite (filter_map_comm fst), map_map.
          erewrite (filter_ext_in (fun x => negb _)).
          2:{ intros [k x] Hi. cbn beta. change (fst (enc (k, x))) with (List.map (@Some string) k). rewrite (HX k (in_map fst _ _ Hi)). instantiate (1 := fun r => if in_dec (list_eq_dec string_dec) (fst r) (List.map fst F0) then false else true). cbn [fst]. destruct (in_dec _ k _); reflexivity. }
          erewrite map_ext_in; [apply Permutation_refl|]. intros [k x] Hi. apply filter_In in Hi as [Hi Hn]. cbn [fst] in Hn. destruct (in_dec _ k _) as [Y|N]; [discriminate|]. unfold enc. cbn [fst snd].
          assert (List.length k = List.length idx) as Hl by (apply HK; right; exact (in_map fst _ _ Hi)).
          f_equal; [rewrite E0, E1, sproj_some by (auto; intros z; auto); now rewrite project_id|]. destruct (HO k Hl) as [-> _]. rewrite (lookup_In k x F1 D1 Hi), (lookup_None k F0 N). reflexivity.
    - apply Forall_forall. intros r Hr. unfold align in Hr. apply in_map_iff in Hr as (k & <- & Hk). cbn [snd]. apply HO, HK. now apply sort_uniq_In, in_app_or in Hk.
    - unfold align. rewrite map_fst_pair. apply ksorted_NoDup, sort_uniq_sorted.
    - apply Forall_forall. intros r Hr. unfold align in Hr. apply in_map_iff in Hr as (k & <- & Hk). cbn [fst]. apply HK. now apply sort_uniq_In, in_app_or in Hk.
  Qed.

  Lemma joined_left : idx = idx0 -> us = idx1 -> incl idx1 idx0 -> (List.length idx1 < List.length idx0)%nat ->
    inv parse srt t (joined op name idx us v0 v1 q0 q1) idx name (List.map (fun kv => (fst kv, num_op op (snd kv) (lookup (project idx0 idx1 (fst kv)) F1))) F0).
  Proof.
    intros E0 E1 Hi Hlt. destruct I0 as (S0 & W0 & P0 & N0 & D0 & L0). destruct I1 as (S1 & W1 & P1 & N1 & D1 & L1). destruct Hfit as (_ & HB & Hdiv). specialize (HB Hlt).
    assert (NoDup idx0) as Hd by apply S0.
    assert (Nat.ltb (List.length idx0) (List.length idx1) = false) as Eb by (apply Nat.ltb_ge; lia). rewrite Eb in Hdiv.
    pose proof L0 as L0'. pose proof L1 as L1'. rewrite Forall_forall in L0', L1'.
    assert (forall k x, In (k, x) F0 -> unf (num_op op x (lookup (project idx0 idx1 k) F1)) = opS op (unf x) (unf (lookup (project idx0 idx1 k) F1)) /\ no_inf (num_op op x (lookup (project idx0 idx1 k) F1))) as HO.
    { intros k x Hx. rewrite Forall_forall in N0. specialize (L0' _ Hx). apply op_agree; [exact (N0 _ Hx)|now apply lookup_no_inf|]. intros E. specialize (Hdiv E k L0'). rewrite (project_id idx0) in Hdiv by auto. now rewrite (lookup_In k x F0 D0 Hx) in Hdiv. }
    split; [apply shape_sel1; auto; now rewrite E0|]. split; [apply (joined_scoped _ _ _ _ idx0 idx1); auto|]. split; [|split; [|split]].
    - rewrite join_left by auto. etransitivity; [apply (JL_perm _ _ _ _ _ P0 P1)|]. unfold JL.
      rewrite (join_frames (opS op) (num_op op) idx0 us F0 F1); auto; try (rewrite E1; auto).
      + replace (match idx1 with [] => [] | _ => List.map _ _ end) with (@nil (skey * option R)); [now rewrite app_nil_r|].
        destruct idx1 as [|c l] eqn:Ei; [reflexivity|]. rewrite <- Ei in *. symmetry. rewrite filter_none; [reflexivity|]. intros u Hu. apply in_map_iff in Hu as ([k x] & <- & Hx). apply negb_false_iff, existsb_exists.
        destruct (HB k (in_map fst _ _ Hx)) as (k' & Hk' & Ek). apply in_map_iff in Hk' as ([k0 y] & E & Hk'). cbn [fst] in E. subst k0. exists (enc (k', y)). split; [now apply in_map|]. unfold enc. cbn [fst snd].
        pose proof (L0' _ Hk') as Hl. cbn [fst] in Hl. rewrite sproj_some by auto. rewrite Ek, mk_some by reflexivity. now apply key_eqb_eq.
      + intros k x Hx. now apply HO.
    - apply Forall_forall. intros r Hr. apply in_map_iff in Hr as ([k x] & <- & Hx). cbn [fst snd]. now apply HO.
    - rewrite map_map. cbn [fst]. exact D0.
    - apply Forall_forall. intros r Hr. apply in_map_iff in Hr as ([k x] & <- & Hx). cbn [fst]. rewrite E0. exact (L0' _ Hx).
  Qed.
  Lemma joined_right : idx = idx1 -> us = idx0 -> incl idx0 idx1 -> (List.length idx0 < List.length idx1)%nat ->
    inv parse srt t (joined op name idx us v0 v1 q0 q1) idx name (List.map (fun kv => (fst kv, num_op op (lookup (project idx1 idx0 (fst kv)) F0) (snd kv))) F1).
  Proof.
    intros E1 E0 Hi Hlt. destruct I0 as (S0 & W0 & P0 & N0 & D0 & L0). destruct I1 as (S1 & W1 & P1 & N1 & D1 & L1). destruct Hfit as (HB & _ & Hdiv). specialize (HB Hlt).
    assert (NoDup idx1) as Hd by apply S1.
    assert (Nat.ltb (List.length idx0) (List.length idx1) = true) as Eb by (apply Nat.ltb_lt; lia). rewrite Eb in Hdiv.
    pose proof L0 as L0'. pose proof L1 as L1'. rewrite Forall_forall in L0', L1'.
    assert (forall k x, In (k, x) F1 -> unf (num_op op (lookup (project idx1 idx0 k) F0) x) = opS op (unf (lookup (project idx1 idx0 k) F0)) (unf x) /\ no_inf (num_op op (lookup (project idx1 idx0 k) F0) x)) as HO.
    { intros k x Hx. rewrite Forall_forall in N1. specialize (L1' _ Hx). apply op_agree; [now apply lookup_no_inf|exact (N1 _ Hx)|]. intros E. specialize (Hdiv E k L1'). rewrite (project_id idx1) in Hdiv by auto. now rewrite (lookup_In k x F1 D1 Hx) in Hdiv. }
    split; [apply shape_sel1; auto; now rewrite E1|]. split; [apply (joined_scoped _ _ _ _ idx0 idx1); auto|]. split; [|split; [|split]].
    - rewrite join_right by auto. etransitivity; [apply (JR_perm _ _ _ _ _ P0 P1)|]. unfold JR.
      rewrite (join_frames (fun x y => opS op y x) (fun x y => num_op op y x) idx1 us F1 F0); auto; try (rewrite E0; auto).
      + replace (match idx0 with [] => [] | _ => List.map _ _ end) with (@nil (skey * option R)); [now rewrite app_nil_r|].
        destruct idx0 as [|c l] eqn:Ei; [reflexivity|]. rewrite <- Ei in *. symmetry. rewrite filter_none; [reflexivity|]. intros u Hu. apply in_map_iff in Hu as ([k x] & <- & Hx). apply negb_false_iff, existsb_exists.
        destruct (HB k (in_map fst _ _ Hx)) as (k' & Hk' & Ek). apply in_map_iff in Hk' as ([k0 y] & E & Hk'). cbn [fst] in E. subst k0. exists (enc (k', y)). split; [now apply in_map|]. unfold enc. cbn [fst snd].
        pose proof (L1' _ Hk') as Hl. cbn [fst] in Hl. rewrite sproj_some by auto. rewrite Ek, mk_some by reflexivity. now apply key_eqb_eq.
      + intros k x Hx. now apply HO.
    - apply Forall_forall. intros r Hr. apply in_map_iff in Hr as ([k x] & <- & Hx). cbn [fst snd]. now apply HO.
    - rewrite map_map. cbn [fst]. exact D1.
    - apply Forall_forall. intros r Hr. apply in_map_iff in Hr as ([k x] & <- & Hx). cbn [fst]. rewrite E1. exact (L1' _ Hx).
  Qed.
End Join.

(** ** CompositeMetric *)
Lemma shape_vals_in q sub idx v : shape q sub v -> incl sub idx -> ~ In v idx -> filter (fun c => negb (mem c idx)) (columns_of q) = [v].
Proof.
  intros (_ & _ & [[_ ->]|[_ ->]]) Hi Hv; [now apply filter_not_in|]. rewrite filter_app, filter_not_in by assumption. now rewrite filter_out.
Qed.
Lemma shape_idx q sub v : shape q sub v -> add_cols (groupby_of q) (firstn (List.length (columns_of q) - 1) (columns_of q)) = sub.
Proof.
  intros (Hd & _ & [[-> ->]|[-> ->]]); [cbn; reflexivity|]. rewrite app_length. cbn [List.length]. replace (List.length sub + 1 - 1)%nat with (List.length sub) by lia. rewrite firstn_app, Nat.sub_diag, firstn_all. cbn [firstn]. rewrite app_nil_r.
  now rewrite add_cols_app by exact Hd.
Qed.
Lemma subset_incl a b : subset a b = true <-> incl a b.
Proof. unfold subset. rewrite forallb_forall. split; intros H x Hx; [now apply mem_in, H|now apply mem_in, H]. Qed.
Lemma composite_cases op name idx idx0 idx1 v0 v1 q0 q1 : shape q0 idx0 v0 -> shape q1 idx1 v1 -> incl idx0 idx -> incl idx1 idx -> ~ In v0 idx -> ~ In v1 idx ->
  (idx0 = idx /\ idx1 = idx /\ (merged_sql op name idx q0 q1 = Some (composite_sql op name idx q0 q1) \/ composite_sql op name idx q0 q1 = joined op name idx idx v0 v1 q0 q1)) \/
  (~ (idx0 = idx /\ idx1 = idx) /\ ((List.length idx0 < List.length idx1)%nat -> composite_sql op name idx q0 q1 = joined op name idx idx0 v0 v1 q0 q1) /\
   ((List.length idx1 < List.length idx0)%nat -> composite_sql op name idx q0 q1 = joined op name idx idx1 v0 v1 q0 q1)).
Proof.
  intros S0 S1 H0 H1 V0 V1. unfold composite_sql. rewrite !(shape_vals_in _ _ _ _ S0), !(shape_vals_in _ _ _ _ S1) by assumption. cbn [List.length]. rewrite !(shape_idx _ _ _ S0), !(shape_idx _ _ _ S1).
  destruct (list_eq_dec string_dec idx0 idx) as [E0|N0]; [destruct (list_eq_dec string_dec idx1 idx) as [E1|N1]|].
  - left. split; [exact E0|]. split; [exact E1|]. subst idx0 idx1. assert (subset idx idx = true) as -> by (apply subset_incl; intros x; auto). cbn [andb].
    destruct (merged_sql op name idx q0 q1); [left; reflexivity|right; reflexivity].
  - right. split; [tauto|]. destruct S0 as (D0 & _). destruct S1 as (D1 & _). split; intros Hl.
    + destruct (subset idx1 idx0) eqn:E; [apply subset_incl in E; pose proof (NoDup_incl_length D1 E); lia|]. rewrite andb_false_r. cbn [List.map combine fst snd]. assert (Nat.ltb (List.length idx0) (List.length idx1) = true) as -> by now apply Nat.ltb_lt. reflexivity.
    + destruct (subset idx0 idx1) eqn:E; [apply subset_incl in E; pose proof (NoDup_incl_length D0 E); lia|]. cbn [andb List.map combine fst snd]. assert (Nat.ltb (List.length idx0) (List.length idx1) = false) as -> by (apply Nat.ltb_ge; lia). reflexivity.
  - right. split; [tauto|]. destruct S0 as (D0 & _). destruct S1 as (D1 & _). split; intros Hl.
    + destruct (subset idx1 idx0) eqn:E; [apply subset_incl in E; pose proof (NoDup_incl_length D1 E); lia|]. rewrite andb_false_r. cbn [List.map combine fst snd]. assert (Nat.ltb (List.length idx0) (List.length idx1) = true) as -> by now apply Nat.ltb_lt. reflexivity.
    + destruct (subset idx0 idx1) eqn:E; [apply subset_incl in E; pose proof (NoDup_incl_length D0 E); lia|]. cbn [andb List.map combine fst snd]. assert (Nat.ltb (List.length idx0) (List.length idx1) = false) as -> by (apply Nat.ltb_ge; lia). reflexivity.
Qed.
Definition wider (a b : list string) : list string := if Nat.ltb (List.length a) (List.length b) then b else a.
Lemma joined_form op name idx us v0 v1 q0 q1 run : form idx name run (joined op name idx us v0 v1 q0 q1).
Proof. unfold joined. apply form_sel; [now destruct op|intros _; now destruct op|reflexivity]. Qed.
(** the index columns of the two sides *)
Definition nested (a b : list string) : Prop := a = b \/ (incl a b /\ (List.length a < List.length b)%nat) \/ (incl b a /\ (List.length b < List.length a)%nat).
Lemma nested_wider a b : nested a b -> incl a (wider a b) /\ incl b (wider a b).
Proof.
  unfold wider. intros [->|[[H L]|[H L]]].
  - rewrite Nat.ltb_irrefl. split; intros x; auto.
  - apply Nat.ltb_lt in L. rewrite L. split; [exact H|intros x; auto].
  - assert (Nat.ltb (List.length a) (List.length b) = false) as -> by (apply Nat.ltb_ge; lia). split; [intros x; auto|exact H].
Qed.
Lemma composite_form op name idx0 idx1 v0 v1 run0 run1 q0 q1 : nested idx0 idx1 -> NoDup idx0 -> NoDup idx1 ->
  ~ In v0 (wider idx0 idx1) -> ~ In v1 (wider idx0 idx1) -> form idx0 v0 run0 q0 -> form idx1 v1 run1 q1 -> form (wider idx0 idx1) name (run0 || run1) (composite_sql op name (wider idx0 idx1) q0 q1).
Proof.
  intros HN D0 D1 V0 V1 F0 F1. destruct (nested_wider _ _ HN) as [W0 W1].
  assert (shape q0 idx0 v0) as S0 by (apply (form_shape _ _ run0); auto). assert (shape q1 idx1 v1) as S1 by (apply (form_shape _ _ run1); auto).
  destruct (composite_cases op name _ idx0 idx1 v0 v1 q0 q1 S0 S1 W0 W1 V0 V1) as [(E0 & E1 & [HM|HM])|(NE & HL & HR)].
  - rewrite <- E0 in *. rewrite E1 in *. now apply (merge_form op name idx0 v0 v1 run0 run1 q0 q1).
  - rewrite HM. apply joined_form.
  - destruct HN as [->|[[_ L]|[_ L]]].
    + exfalso. apply NE. unfold wider. rewrite Nat.ltb_irrefl. auto.
    + rewrite HL by exact L. apply joined_form.
    + rewrite HR by exact L. apply joined_form.
Qed.
Lemma composite_scoped op name idx0 idx1 v0 v1 run0 run1 q0 q1 : nested idx0 idx1 -> NoDup idx0 -> NoDup idx1 ->
  ~ In v0 (wider idx0 idx1) -> ~ In v1 (wider idx0 idx1) -> form idx0 v0 run0 q0 -> form idx1 v1 run1 q1 -> well_scoped q0 = true -> well_scoped q1 = true -> well_scoped (composite_sql op name (wider idx0 idx1) q0 q1) = true.
Proof.
  intros HN D0 D1 V0 V1 F0 F1 Q0 Q1. destruct (nested_wider _ _ HN) as [W0 W1].
  assert (shape q0 idx0 v0) as S0 by (apply (form_shape _ _ run0); auto). assert (shape q1 idx1 v1) as S1 by (apply (form_shape _ _ run1); auto).
  destruct (composite_cases op name _ idx0 idx1 v0 v1 q0 q1 S0 S1 W0 W1 V0 V1) as [(E0 & E1 & [HM|HM])|(NE & HL & HR)].
  - rewrite <- E0 in *. rewrite E1 in *. now apply (merge_scoped op name idx0 v0 v1 run0 run1 q0 q1).
  - rewrite HM. apply (joined_scoped _ _ _ _ idx0 idx1); auto. left. split; [now symmetry|]. split; [now symmetry|]. intros x Hx. rewrite E1 in Hx. rewrite E0. exact Hx.
  - destruct HN as [->|[[Hi L]|[Hi L]]].
    + exfalso. apply NE. unfold wider. rewrite Nat.ltb_irrefl. auto.
    + rewrite HL by exact L. apply (joined_scoped _ _ _ _ idx0 idx1); auto. right. apply Nat.ltb_lt in L. unfold wider. now rewrite L.
    + rewrite HR by exact L. apply (joined_scoped _ _ _ _ idx0 idx1); auto. left. assert (Nat.ltb (List.length idx0) (List.length idx1) = false) as Lb by (apply Nat.ltb_ge; lia). unfold wider. now rewrite Lb.
Qed.
Section Composite.
  Variables (parse : string -> cond) (srt : list okey -> list env -> list env) (t : stable).
  Hypothesis Hsrt : db_sorts srt.
  Lemma composite_step op name idx0 idx1 v0 v1 run0 run1 q0 q1 F0 F1 : nested idx0 idx1 -> ~ In name (wider idx0 idx1) -> ~ In v0 (wider idx0 idx1) -> ~ In v1 (wider idx0 idx1) ->
    run0 && run1 = false -> form idx0 v0 run0 q0 -> form idx1 v1 run1 q1 -> inv parse srt t q0 idx0 v0 F0 -> inv parse srt t q1 idx1 v1 F1 -> (idx0 = [] -> F0 <> []) -> (idx1 = [] -> F1 <> []) ->
    bin_fits op idx0 idx1 F0 F1 ->
    inv parse srt t (composite_sql op name (wider idx0 idx1) q0 q1) (wider idx0 idx1) name (align_levels op idx0 idx1 F0 F1).
  Proof.
    intros HN Hname V0 V1 Hrun F'0 F'1 I0 I1 Ne0 Ne1 Hfit. destruct (nested_wider _ _ HN) as [W0 W1].
    destruct (composite_cases op name _ idx0 idx1 v0 v1 q0 q1 (proj1 I0) (proj1 I1) W0 W1 V0 V1) as [(E0 & E1 & [HM|HM])|(NE & HL & HR)].
    - rewrite <- E0 in *. rewrite E1 in *. unfold align_levels. rewrite Nat.compare_refl. apply (merge_step op name idx0 v0 v1 run0 run1 q0 q1); auto. { apply I0. }
      destruct Hfit as (_ & _ & Hdiv). intros E k Hk. specialize (Hdiv E k). rewrite Nat.ltb_irrefl in Hdiv.
      assert (List.length k = List.length idx0) as Hl. { destruct I0 as (_ & _ & _ & _ & _ & L0). rewrite Forall_forall in L0. apply in_map_iff in Hk as (r & <- & Hr). auto. }
      rewrite project_id in Hdiv by (auto; apply I0). auto.
    - rewrite HM. assert (align_levels op idx0 idx1 F0 F1 = align op F0 F1) as -> by (unfold align_levels; rewrite (f_equal (@List.length string) (eq_trans E0 (eq_sym E1))), Nat.compare_refl; reflexivity).
      apply (joined_same parse srt t op name _ _ idx0 idx1); auto; intros E; [apply Ne0|apply Ne1]; congruence.
    - destruct HN as [->|[[Hi L]|[Hi L]]].
      + exfalso. apply NE. unfold wider. rewrite Nat.ltb_irrefl. auto.
      + rewrite HL by exact L. pose proof L as Lb. apply Nat.ltb_lt in Lb. assert (wider idx0 idx1 = idx1) as EW by (unfold wider; now rewrite Lb). unfold align_levels. rewrite (proj2 (Nat.compare_lt_iff _ _) L).
        rewrite EW in *. apply (joined_right parse srt t); auto.
      + rewrite HR by exact L. assert (Nat.ltb (List.length idx0) (List.length idx1) = false) as Lb by (apply Nat.ltb_ge; lia). assert (wider idx0 idx1 = idx0) as EW by (unfold wider; now rewrite Lb). unfold align_levels. rewrite (proj2 (Nat.compare_gt_iff _ _) L).
        rewrite EW in *. apply (joined_left parse srt t); auto.
  Qed.
End Composite.

(** C51: metrics with a confidence level used more than once. *)
From Coq Require Import List String Bool Arith.
From Verif Require Import M_Metric M_Cache M_Hash L_Hash M_CiBase S_CiBase L_Cache L_CacheTop L_CiBase.
Import ListNotations.
Open Scope string_scope.
Open Scope list_scope.

(** In a MetricList every use of a metric gives the result it has on its own, with its own base values, as long as equal
    metrics with a confidence level are one and the same instance.  Whatever the instances kept from earlier rounds in
    their attribute cache_key ([ks]).  Missing: equal but different instances, see the next two theorems. *)
Theorem C51_one_instance_partial V B (comp : ckey -> res (V * B)) keq ms sb parent ks :
  (forall a b, keq a b = true <-> a = b) ->
  normal_slice parent ->
  (forall m m', In m ms -> In m' ms -> ci_id m = ci_id m' -> m = m') ->
  (forall m m', In m ms -> In m' ms -> ci_conf m = true -> ci_fp m = ci_fp m' -> ci_id m = ci_id m') ->
  fst (ci_list comp keq ms sb parent (CSt [] ks)) = map (fun m => alone comp m (data_key parent sb m)) ms.
Proof.
  intros Hk Hs Hid Heq. apply (list_ok comp keq Hk ms sb parent Hs Hid).
  - intros m m' H H' Hf E. apply Hid; [exact H|exact H'|]. apply Heq; auto. apply (f_equal k_fp) in E. exact E.
  - apply incl_refl.
  - intros m _ e E. discriminate E.
Qed.

(** Two equal instances: the second one fails with a KeyError exactly when there is a split_by, a filter further up that it
    does not have itself, a slice, or a cache_key given by the user. *)
Theorem C51_second_instance V B (comp : ckey -> res (V * B)) keq m1 m2 sb parent ks v b :
  (forall a b, keq a b = true <-> a = b) ->
  normal_slice parent ->
  ci_id m1 <> ci_id m2 -> ci_fp m1 = ci_fp m2 -> ci_where m1 = ci_where m2 -> ci_conf m1 = true -> ci_conf m2 = true ->
  ks (ci_id m2) = None -> comp (data_key parent sb m1) = Ok (v, b) ->
  exists second, fst (ci_list comp keq [m1; m2] sb parent (CSt [] ks)) = [Ok (v, Some b); second]
  /\ (second = Ok (v, Some b) <->
      sb = [] /\ k_split parent = [] /\ k_raw parent = None /\ k_slice parent = [] /\ incl (k_where parent) (ci_where m1))
  /\ (second <> Ok (v, Some b) -> second = Err "KeyError").
Proof.
  intros Hk Hs Hi Hf Hw H1 H2 Hn Hc. eexists. split; [exact (second_instance comp keq Hk m1 m2 sb parent v b ks Hs Hi Hf Hw H1 H2 Hn Hc)|].
  destruct (keq (data_key parent sb m1) (CKey (ci_fp m2) None (to_set (ci_where m2)) [] [])) eqn:E.
  - apply Hk in E. unfold data_key in E. injection E as E0 E1 E2 E3 E4. split; [|congruence]. split; [|reflexivity]. intros _.
    assert (sb = []) by (destruct sb; [reflexivity|discriminate]). subst sb. repeat split; auto.
    intros x Hx. assert (In x (to_set (k_where parent ++ ci_where m1))) as H by (apply to_set_in, in_app_iff; left; exact Hx).
    rewrite E2 in H. apply (proj1 (to_set_in x _)) in H. rewrite Hw. exact H.
  - split; [|reflexivity]. split; [discriminate|]. intros (-> & A & A1 & A2 & A3). exfalso.
    enough (data_key parent [] m1 = CKey (ci_fp m2) None (to_set (ci_where m2)) [] []) as X by (apply Hk in X; congruence).
    unfold data_key. rewrite A, A1, A2, <- Hf, <- Hw. f_equal. apply to_set_ext. intros x. rewrite in_app_iff. split; [intros [H|H]; [apply A3, H|exact H]|auto].
Qed.

Theorem C51_two_instances_refuted :
  exists (comp : ckey -> res (nat * nat)) keq ms parent,
    (forall a b, keq a b = true <-> a = b) /\ normal_slice parent /\
    fst (ci_list comp keq ms ["country"] parent (CSt [] (fun _ => None))) = [Ok (1, Some 2); Err "KeyError"]
    /\ map (fun m => alone comp m (data_key parent ["country"] m)) ms = [Ok (1, Some 2); Ok (1, Some 2)].
Proof.
  pose (m := Ci 1 (FStr "Jackknife") [] true). pose (m' := Ci 2 (FStr "Jackknife") [] true).
  pose (parent := CKey (FStr "MetricList") None [] ["country"] []).
  exists (fun _ => Ok (1, 2)), M_Hash.ckey_eqb, [m; m'], parent.
  split; [exact ckey_eqb_eq|]. split; [split; [constructor|reflexivity]|]. split; reflexivity.
Qed.

(** One instance, three calls with the user's cache and cache_key: split by [a], by [b], and by [a] again.  The third result
    comes with the base values of the second call. *)
Theorem C51_stale_base_refuted V B (comp : ckey -> res (V * B)) keq fp w i v1 b1 v2 b2 :
  (forall a b, keq a b = true <-> a = b) ->
  let m := Ci i fp w true in
  let key s := CKey fp (Some "key") (to_set w) [s] [] in
  comp (key "a") = Ok (v1, b1) -> comp (key "b") = Ok (v2, b2) ->
  fst (ci_calls comp keq [(m, ["a"], "key"); (m, ["b"], "key"); (m, ["a"], "key")] (CSt [] (fun _ => None)))
  = [Ok (v1, Some b1); Ok (v2, Some b2); Ok (v1, Some b2)].
Proof.
  intros Hk m key C1 C2.
  assert (Tw : to_set (to_set w ++ w) = to_set w) by exact (to_set_again [] w).
  assert (Hne : key "a" <> key "b") by discriminate.
  assert (W1 : forall s s', ci_wrap m (Some (key s)) (Some (KRaw "key")) [s'] = Ok (key s')).
  { intros s s'. transitivity (Ok (CKey fp (Some "key") (to_set (to_set w ++ w)) [s'] [])); [reflexivity|rewrite Tw; reflexivity]. }
  assert (WB : forall s, ci_wrap m (Some (key s)) (Some (KKey (key s))) [] = Ok (key s)).
  { intros s. transitivity (Ok (CKey fp (Some "key") (to_set (to_set w ++ w)) [s] [])); [reflexivity|rewrite Tw; reflexivity]. }
  cbn [ci_calls].
  rewrite (compute_miss comp keq m ["a"] _ (CSt [] (fun _ => None)) (key "a") (key "a") v1 b1) by (reflexivity || exact C1 || apply WB).
  set (st1 := csave keq (key "a", true) (EBase b1) _).
  assert (K1 : ckof st1 (ci_id m) = Some (key "a")) by apply ckof_saved.
  rewrite (compute_miss comp keq m ["b"] _ st1 (key "b") (key "b") v2 b2); [|reflexivity|rewrite K1; apply W1| |exact C2|apply WB].
  2: { unfold st1. rewrite cget_save_other by (exact Hk || discriminate). rewrite cget_save_other by (exact Hk || discriminate). reflexivity. }
  set (st2 := csave keq (key "b", true) (EBase b2) _).
  assert (K2 : ckof st2 (ci_id m) = Some (key "b")) by apply ckof_saved.
  rewrite (compute_hit comp keq m ["a"] _ st2 (key "a") (key "b") (key "b") v1 b2); [reflexivity|reflexivity|rewrite K2; apply W1| |exact K2|apply WB|].
  - unfold st2. rewrite cget_save_other by (exact Hk || discriminate). rewrite cget_save_other by (exact Hk || discriminate).
    rewrite cget_setk. unfold st1. rewrite cget_save_other by (exact Hk || discriminate). apply cget_save_same. exact Hk.
  - unfold st2. apply cget_save_same. exact Hk.
Qed.

Print Assumptions C51_one_instance_partial.
Print Assumptions C51_second_instance.
Print Assumptions C51_stale_base_refuted.

(** ** Concrete cases *)
Definition jk : ci := Ci 1 (FStr "Jackknife") ["x > 0"] true.
Definition se : ci := Ci 2 (FStr "Jackknife without confidence") [] false.
Definition se' : ci := Ci 3 (FStr "Jackknife without confidence") [] false.
Definition top : ckey := CKey (FStr "MetricList") None ["y = 1"] ["country"] [].
Definition comp_ex (k : ckey) : res (nat * nat) := Ok (List.length (k_where k), List.length (k_split k)).
Example C51_repeated :
  fst (ci_list comp_ex M_Hash.ckey_eqb [jk; se; jk; se'; jk] ["country"] top (CSt [] (fun _ => None)))
  = [Ok (2, Some 1); Ok (1, None); Ok (2, Some 1); Ok (1, None); Ok (2, Some 1)].
Proof. reflexivity. Qed.
Example C51_hypotheses : normal_slice top
  /\ (forall m m', In m [jk; se; jk; se'] -> In m' [jk; se; jk; se'] -> ci_id m = ci_id m' -> m = m')
  /\ (forall m m', In m [jk; se; jk; se'] -> In m' [jk; se; jk; se'] -> ci_conf m = true -> ci_fp m = ci_fp m' -> ci_id m = ci_id m').
Proof.
  split; [split; [constructor|reflexivity]|]. split; intros m m' H H'; cbn in H, H';
    repeat (destruct H as [<-|H]; [|]); try (destruct H); repeat (destruct H' as [<-|H']; [|]); try (destruct H');
    intros; try reflexivity; discriminate.
Qed.
(** the second of two equal instances works without split_by and outer filters *)
Example C51_second_works :
  fst (ci_list comp_ex M_Hash.ckey_eqb [jk; Ci 7 (ci_fp jk) (ci_where jk) true] [] (CKey (FStr "MetricList") None [] [] []) (CSt [] (fun _ => None)))
  = [Ok (1, Some 0); Ok (1, Some 0)].
Proof. reflexivity. Qed.

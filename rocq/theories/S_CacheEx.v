(** A small concrete world for examples and counterexamples: sums and counts of integer columns,
    arithmetic, Distribution.  A result is a list of (values of the split_by columns, number). *)
From Coq Require Import List String ZArith QArith Qcanon Bool.
From Verif Require Import M_Metric M_Cache S_Cache.
Import ListNotations.
Open Scope string_scope.
Open Scope list_scope.

Definition table := list (list cell * Q).
Definition key_of (sb : list string) (r : row) : list cell := map r sb.
Fixpoint cells_eqb (a b : list cell) : bool :=
  match a, b with [], [] => true | x :: a', y :: b' => cell_eqb x y && cells_eqb a' b' | _, _ => false end.
Fixpoint dedup (l : list (list cell)) : list (list cell) :=
  match l with [] => [] | x :: r => x :: filter (fun y => negb (cells_eqb x y)) (dedup r) end.
(** The groups of a groupby: rows without missing keys. *)
Definition ex_groups (df : frame) (sb : list string) : list (list cell) :=
  filter (fun k => negb (existsb (cell_eqb CNull) k)) (dedup (map (key_of sb) df)).
Definition num_of (c : cell) : option Z := match c with CNum z => Some z | _ => None end.
Definition nums (v : string) (df : frame) : list Z := flat_map (fun r => match num_of (r v) with Some z => [z] | None => [] end) df.
Definition per_group (f : frame -> Q) (df : frame) (sb : list string) : table :=
  match sb with
  | [] => [([], f df)]
  | _ => map (fun k => (k, f (filter (fun r => cells_eqb (key_of sb r) k) df))) (ex_groups df sb)
  end.
Definition zq (z : Z) : Q := inject_Z z.
Definition find_key (k : list cell) (t : table) : option Q := option_map snd (find (fun p => cells_eqb (fst p) k) t).
Definition tab (r : ret table) : res table := match r with RS t | RF t => Ok t | RL _ => Err "list" end.

Definition ex_op (b : binop) (x y : Q) : Q :=
  Qred match b with
  | BAdd => x + y | BSub => x - y | BMul => x * y | BDiv => x / y | BNeg => - x | BPow => x ^ Qnum y | BSqrt => x
  | BUser f _ => if Nat.eqb f 0 then x + y else x * y
  end.
(** Both sides are indexed by the same groups, or one is a constant. *)
Definition ex_csem (b : binop) (x y : carg table) (sb : list string) : res (ret table) :=
  match x, y with
  | CC u, CC v => Ok (RS [([], ex_op b (zq u) (zq v))])
  | CV r, CC v => rbind (tab r) (fun t => Ok (RS (map (fun p => (fst p, ex_op b (snd p) (zq v))) t)))
  | CC u, CV r => rbind (tab r) (fun t => Ok (RS (map (fun p => (fst p, ex_op b (zq u) (snd p))) t)))
  | CV r, CV s =>
      rbind (tab r) (fun t => rbind (tab s) (fun u =>
      Ok (RS (flat_map (fun p => match find_key (fst p) u with
                                 | Some v => [(fst p, ex_op b (snd p) v)] | None => [] end) t))))
  end.
Definition ex_sum v df sb : res (ret table) := Ok (RS (per_group (fun d => zq (fold_right Z.add 0%Z (nums v d))) df sb)).
Definition ex_count v df sb : res (ret table) := Ok (RS (per_group (fun d => zq (Z.of_nat (List.length (nums v d)))) df sb)).
Definition ex_lsem (l : leaf) (df : frame) (sb : list string) : res (ret table) :=
  match l with
  | LSum v => if String.eqb v "missing" then Err "KeyError" else ex_sum v df sb
  | LCount v false => if String.eqb v "missing" then Err "KeyError" else ex_count v df sb
  | LMean v None =>
      rbind (if String.eqb v "missing" then Err "KeyError" else ex_sum v df sb) (fun s =>
      rbind (if String.eqb v "missing" then Err "KeyError" else ex_count v df sb) (fun c => ex_csem BDiv (CV s) (CV c) sb))
  | _ => Err "not in this example"
  end.
Definition ex_osem (o : opk) (ex exi : list string) (r : ret table) (sb : list string) : res (ret table) :=
  match o with
  | ODistribution =>
      rbind (tab r) (fun t =>
      let group p := firstn (List.length sb) (fst (p : list cell * Q)) in
      Ok (RS (map (fun p => (fst p, Qred (snd p /
        fold_right Qplus 0 (map snd (filter (fun p' => cells_eqb (group p') (group p)) t)))%Q)) t)))
  | _ => Err "not in this example"
  end.
Definition ex_sem : sem table := Sem table
  ex_lsem ex_csem ex_osem
  (fun _ _ r => rbind (tab r) (fun t => Ok (RS t)))
  (fun l => (fix go l := match l with [] => Ok [] | r :: l' => rbind (tab r) (fun t => rbind (go l') (fun u => Ok (t ++ u))) end) l)
  ex_groups
  (fun sb parts => Ok (RS (flat_map (fun p => match snd p with RS t | RF t => map (fun x => (fst p ++ fst x, snd x)) t | RL _ => [] end) parts)))
  (fun c r => cell_eqb (r c) (CNum 1))
  (fun c => String.eqb c "bad").

Lemma ex_groups_length df sb vals : In vals (ex_groups df sb) -> List.length vals = List.length sb.
Proof.
  unfold ex_groups. rewrite filter_In. intros [H _].
  assert (G : forall l x, In x (dedup l) -> In x l).
  { induction l as [|y l IH]; simpl; auto. intros x [->|Hx]; auto. apply filter_In in Hx. right. apply IH, Hx. }
  apply G, in_map_iff in H. destruct H as (r & <- & _). unfold key_of. apply map_length.
Qed.
Lemma ex_laws : laws ex_sem.
Proof.
  constructor; try reflexivity. intros. eapply ex_groups_length; eauto.
Qed.

(** Data: columns x, g, a, b, u. *)
Definition mkrow (x : Z) (g : string) (a b : Z) : row := fun c =>
  if String.eqb c "x" then CNum x else if String.eqb c "g" then CStr g
  else if String.eqb c "a" then CNum a else if String.eqb c "b" then CNum b else CNull.
Definition ex_df : frame := [mkrow 1 "p" 1 0; mkrow 2 "p" 0 1; mkrow 3 "q" 1 0; mkrow 6 "r" 1 1].

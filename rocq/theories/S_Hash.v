(** Collision free hashing and Python's equality of the values in a key. *)
From Coq Require Import List String ZArith QArith Bool.
From Verif Require Import M_Metric M_Cache M_Hash.
Import ListNotations.
Open Scope string_scope.
Open Scope list_scope.

(** No two different strings, numbers or tuples of hash values, nor values of different kinds,
    have the same hash. *)
Record collision_free {H} (h : hashing H) : Prop := CollisionFree {
  cf_eqb : forall x y, heqb h x y = true <-> x = y;
  cf_str : forall s t, hstr h s = hstr h t -> s = t;
  cf_tuple : forall l r, htuple h l = htuple h r -> l = r;
  cf_num : forall x y, hnum h x = hnum h y -> x = y;
  cf_rat : forall x y, hrat h x = hrat h y -> x = y;
  cf_kinds : forall s l z q, NoDup [hstr h s; htuple h l; hnum h z; hrat h q; hnone h]
}.

(** What Python's == sees: booleans and integral rationals are integers, a fingerprint is a
    tuple of pairs. *)
Fixpoint py (v : fval) : fval :=
  match v with
  | FStr s => FStr s
  | FBool b => FNum (if b then 1 else 0)
  | FNum z => FNum z
  | FRat q => let r := Qred q in if Pos.eqb (Qden r) 1 then FNum (Qnum r) else FRat r
  | FCell CNull => FCell CNull
  | FCell (CStr s) => FStr s
  | FCell (CNum z) => FNum z
  | FTup l => FTup (map py l)
  | FFp l => FTup (map (fun p => FTup [FStr (fst p); py (snd p)]) l)
  end.

(** Integers whose hash is the integer itself. *)
Definition small (z : Z) : Prop := (Z.abs z < 2 ^ 61 - 1 /\ z <> -1)%Z.
Fixpoint small_fval (v : fval) : Prop :=
  match v with
  | FNum z | FCell (CNum z) => small z
  | FRat q => small (Qnum (Qred q))
  | FTup l => fold_right (fun x r => small_fval x /\ r) True l
  | FFp l => fold_right (fun p r => small_fval (snd p) /\ r) True l
  | _ => True
  end.
Definition small_key (k : ckey) : Prop :=
  small_fval (k_fp k) /\ Forall (fun p => match snd p with CNum z => small z | _ => True end) (k_slice k).

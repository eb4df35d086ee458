(** Comparing a [Number] with Rust's own numbers: [number == 3u8], [number < 1.5f32]. *)
From Verif Require Import Base F64 Number F32.
Open Scope Z_scope.

(** the 14 Rust types of ds/num.rs 314 and 352 *)
Inductive prim : Type :=
| PInt (t : ntype) (k : Z)
| PF32 (x : f32)
| PF64 (x : f64).

(** the values these types have (Rust; not in /repo) *)
Definition prim_wf (p : prim) : bool :=
  match p with
  | PInt t k => in_ntype t k
  | PF32 x => f32_wf x
  | PF64 x => f64_wf x
  end.

(** [Number::from], ds/num.rs 468-505; an f32 goes through its text (507-509) *)
Definition num_of_prim (p : prim) : res number :=
  match p with
  | PInt t k => Ret (num_of_int t k)
  | PF32 x => rmap Float (f32_to_f64 x)
  | PF64 x => Ret (Float x)
  end.

(** [PartialEq<$t> for Number], ds/num.rs 300-314 *)
Definition num_eq_prim (n : number) (p : prim) : res bool :=
  match num_of_prim p with Ret m => Ret (num_eqb n m) | Panic e => Panic e end.

(** [PartialOrd<$t> for Number], ds/num.rs 341-352; the order is always [Some] *)
Definition num_cmp_prim (n : number) (p : prim) : res (option comparison) :=
  match num_of_prim p with
  | Ret m => match num_cmp_res n m with Ret c => Ret (Some c) | Panic e => Panic e end
  | Panic e => Panic e
  end.

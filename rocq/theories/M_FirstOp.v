(** Model of lib/sldr/collation.py:547-551: the first operation that [_insertBefore] gets from difflib. *)
From Coq Require Import QArith Qcanon.
From Verif Require Import Py M_UnicodeSets M_Collation M_Tailor M_TailorQ M_Difflib M_Minimise M_Simple.
Local Open Scope nat_scope.

(** collation.py:548: the keys in DUCET, sorted as there. [enum] is the order in which the set is enumerated; it matters
    for keys of equal weight. *)
Definition in_list (d : list (pystr * list (Qc * Qc * Qc))) (enum : list pystr -> list pystr) (out : list pystr) : list pystr :=
  isort (fun x y => lebQ (dkeyQ d x) (dkeyQ d y)) (enum (filter (dmem streq d) out)).
(** collation.py:549-551, 562: the loop ends after the first operation, which may be one of those it looks at *)
Definition py_first_op (d : list (pystr * list (Qc * Qc * Qc))) (enum : list pystr -> list pystr) (out : list pystr) : option (nat * nat) :=
  match get_opcodes streq (in_list d enum out) out with
  | o :: _ => match o_tag o with Replace | Insert => Some (o_j1 o, o_j2 o) | _ => None end
  | [] => None
  end.
(** collation.py:505-562 *)
Definition convertSimpleQ (ws : N -> bool) (lower upper : pystr -> pystr) (d : list (pystr * list (N * N * N))) (enum : list pystr -> list pystr) (fuel : nat)
  (strict : bool) (elts : list (pystr * tel)) (values : list pystr) : res tstate :=
  convertSimple Qccompare (Q2Qc 0) (Q2Qc 1) bumpQ dropQ ws lower upper (ducetQ d) (py_first_op (ducetQ d) enum) fuel strict elts values.

(** Model of lib/sldr/collation.py: [Collation.minimise] (383-426), [CollElement.head] (588-598),
    [CollElement.all_children] (600-605).
    The sort keys have been set (M_Tailor, [setSortKeys]); no element has a head or children yet, as is so when minimise is
    called for the first time. *)
From Coq Require Import ZArith QArith Qcanon.
From Verif Require Import Py M_UnicodeSets M_Collation M_Tailor M_TailorQ M_Difflib.
Local Open Scope nat_scope.

Notation elts := (list (pystr * tel)).
(** the heads that are known; the children: parent, index of the list, child, in the order they are appended *)
Record hstate := HSt { h_heads : list (pystr * pystr); h_kids : list (pystr * nat * pystr) }.

(** collation.py:595: children[level-1]; there are three lists, and index -1 is the last *)
Definition kids_index (level : nat) : res nat := match level with O => Ok 2 | S i => if Nat.ltb i 3 then Ok i else Raise IndexError end.

(** collation.py:588-598 [head] of the element filed under [k]; the recursion goes on for ever, until RecursionError, when
    an element is its own ancestor *)
Fixpoint head (fuel : nat) (es : elts) (st : hstate) (k : pystr) (e : tel) : res (hstate * pystr) :=
  match fuel with
  | O => Raise RecursionError
  | S f =>
      match dget streq (h_heads st) k with
      | Some h => Ok (st, h)
      | None =>
          match dget streq es (t_base e) with
          | Some b =>
              do r <- head f es st (t_base e) b;
              do i <- kids_index (t_level e);
              Ok (HSt (dset streq (h_heads (fst r)) k (snd r)) (h_kids (fst r) ++ [(t_base e, i, k)]), snd r)
          | None => Ok (HSt (dset streq (h_heads st) k (t_base e)) (h_kids st), t_base e)
          end
      end
  end.

(** an item: a string, and its element when it has one *)
Notation item := (pystr * option tel)%type.
(** collation.py:391 *)
Definition special (k : pystr) (e : tel) : bool := (negb (N.eqb (t_before e) 0) || Nat.ltb 1 (length k))%bool.
(** collation.py:390-394 *)
Definition chain_step (es : elts) (r : res (hstate * list item * list (pystr * list item))) (p : pystr * tel) :=
  do r <- r;
  let '(st, out, chains) := r in
  let (k, e) := p in
  if special k e then Ok (st, out ++ [(k, Some e)], chains)
  else
    do x <- head (S (length es)) es st k e;
    let (st, h) := x in
    Ok (st, out, dset streq chains h ((match dget streq chains h with Some l => l | None => [] end) ++ [(k, Some e)])).
Definition chain_up (es : elts) : res (hstate * list item * list (pystr * list item)) :=
  fold_left (chain_step es) es (Ok (HSt [] [], [], [])).
(** collation.py:395-397 the members of the set *)
Definition members (chains : list (pystr * list item)) : list item := flat_map (fun p => snd p ++ [(fst p, None)]) chains.

(** ">>>>"[:n] *)
Definition marks (n : nat) : pystr := firstn n (lit ">>>>").
Definition marksZ (z : Z) : pystr := if Z.ltb z 0 then firstn (Z.to_nat (4 + z)) (lit ">>>>") else marks (Z.to_nat z).
(** collation.py:403 *)
Definition klabel (x : item) : pystr := fst x ++ match snd x with Some e => marks (t_level e) | None => lit ">" end.
(** collation.py:404-409 *)
Fixpoint dlabels (dlev : pystr -> pystr -> Z) (last : pystr) (l : list item) : list pystr :=
  match l with [] => [] | x :: l' => (fst x ++ marksZ (dlev last (fst x))) :: dlabels dlev (fst x) l' end.

(** collation.py:600-605 [all_children]: range(2 if level == 1 else level, 4); index -1 is the last list *)
Definition levels (level : nat) : list nat :=
  map (fun i => match i with O => 2 | S i' => i' end) (seq (if Nat.eqb level 1 then 2 else level) (4 - (if Nat.eqb level 1 then 2 else level))).
Definition kids_of (kids : list (pystr * nat * pystr)) (k : pystr) (i : nat) : list pystr :=
  map snd (filter (fun x => (streq (fst (fst x)) k && Nat.eqb (snd (fst x)) i)%bool) kids).
Fixpoint all_children (fuel : nat) (kids : list (pystr * nat * pystr)) (level : nat) (k : pystr) : list pystr :=
  match fuel with
  | O => [k]
  | S f => flat_map (fun i => flat_map (all_children f kids level) (kids_of kids k i)) (levels level) ++ [k]
  end.

Section Minimise.
  (** comparisons by self.sortKey and by ducetSortKey, diffLevel of ducetSortKey; the order in which the set is enumerated;
      get_opcodes *)
  Variables kleb dleb : pystr -> pystr -> bool.
  Variable dlev : pystr -> pystr -> Z.
  Variable enum : list item -> list item.
  Variable ops : list pystr -> list pystr -> list op.

  (** collation.py:411-413 *)
  Definition op_items (korder : list item) (o : op) : list item :=
    match o_tag o with
    | Insert | Replace => firstn (o_j2 o - o_j1 o) (skipn (o_j1 o) korder)
    | _ => []
    end.
  Definition korder (ks : list item) : list item := isort (fun x y => kleb (fst x) (fst y)) ks.
  Definition dorder (ks : list item) : list item := isort (fun x y => dleb (fst x) (fst y)) ks.
  Definition dlist (ks : list item) : list pystr :=
    match dorder ks with [] => [] | x :: l => (fst x ++ lit ">") :: dlabels dlev (fst x) l end.
  (** collation.py:416-421; there are at most as many steps from an element to those below it as there are children *)
  Definition keeps (kids : list (pystr * nat * pystr)) (out : list item) : list pystr :=
    flat_map (fun x => match snd x with Some e => all_children (length kids) kids (t_level e) (fst x) | None => [fst x] end) out.
  (** collation.py:383-426 *)
  Definition minimise (es : elts) : res elts :=
    do r <- chain_up es;
    let '(st, out, chains) := r in
    let ks := enum (members chains) in
    match ks with
    | [] => Ok es
    | _ =>
        let ko := korder ks in
        let os := ops (dlist ks) (map klabel ko) in
        let out := out ++ flat_map (op_items ko) os in
        let keep := keeps (h_kids st) out in
        Ok (filter (fun p => existsb (streq (fst p)) keep) es)
    end.
End Minimise.

(** The whole with exact rational weights: the sort keys set, and the comparisons made with them. Keys of elements that
    have been set are found, so that no comparison raises. *)
Definition lebQ (x y : res (list (list Qc))) : bool :=
  match x, y with
  | Ok x, Ok y => match sk_lt Qccompare (Q2Qc 0) y (Some x) with Ok b => negb b | Raise _ => true end
  | _, _ => true
  end.
Definition dkeyQ (d : list (pystr * list (Qc * Qc * Qc))) (k : pystr) : res (list (list Qc)) := dkey Qccompare (Q2Qc 0) d k.
Definition dlevQ (d : list (pystr * list (Qc * Qc * Qc))) (x y : pystr) : Z :=
  match dkeyQ d x, dkeyQ d y with
  | Ok a, Ok b => match diffLevelQ (Some a) (Some b) with Ok z => z | Raise _ => 4%Z end
  | _, _ => 4%Z
  end.
Definition minimiseQ (d : list (pystr * list (N * N * N))) (enum : list item -> list item) (fuel : nat) (es : elts) : res elts :=
  let d := ducetQ d in
  do st <- setSortKeysQ d false fuel (TSt es [] false);
  minimise (fun x y => lebQ (sortKeyQ d st x) (sortKeyQ d st y)) (fun x y => lebQ (dkeyQ d x) (dkeyQ d y)) (dlevQ d) enum
    (get_opcodes streq) (ts_elts st).

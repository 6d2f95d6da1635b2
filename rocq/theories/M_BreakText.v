(** Model of the script that breaks lines of text (/repo/scripts/icubreaktext): the text of the
    rules it gives ICU, made from a segmentation of an LDML file, and the pieces it writes.
    Parameters: [ws] is the white space of str.strip(); [num] is float() of a rule's id, as a
    whole number in the same order (None: not a number; NaN is not modelled); [icu] is the break
    iterator ICU builds of a text of rules or its error, and a break iterator is the function
    giving the positions it reports in a line.
    Simplification: every variable has an id. *)
From Coq Require Import String.
From Verif Require Import Py.
Local Open Scope list_scope.
Local Open Scope nat_scope.

Definition var : Type := pystr * option pystr.            (* id, text (None: the element is empty) *)
Definition rule : Type := option pystr * option pystr.    (* id, text *)
Definition segmentation : Type := list var * list rule.
Definition iter : Type := pystr -> list nat.

(** str.strip() *)
Fixpoint lstrip (ws : N -> bool) (s : pystr) : pystr :=
  match s with c :: s' => if ws c then lstrip ws s' else s | [] => [] end.
Definition strip (ws : N -> bool) (s : pystr) : pystr := rev (lstrip ws (rev (lstrip ws s))).

(** * The names a text mentions: line 42, re.findall(r"(\$[a-zA-Z]+)", ...) *)
Definition is_letter (c : N) : bool := (N.leb 65 c && N.leb c 90 || N.leb 97 c && N.leb c 122)%bool.
Fixpoint letters (s : pystr) : pystr :=
  match s with c :: s' => if is_letter c then c :: letters s' else [] | [] => [] end.
(** no name begins inside another, for a dollar is not a letter *)
Fixpoint refs (s : pystr) : list pystr :=
  match s with
  | [] => []
  | c :: s' =>
      if N.eqb c 36 then match letters s' with [] => refs s' | l => (c :: l) :: refs s' end
      else refs s'
  end.

(** * graphlib.TopologicalSorter: add (lines 41, 43) and static_order (line 44) *)
(** the nodes in the order they are first met, and the pairs (node, predecessor) *)
Definition graph : Type := list pystr * list (pystr * pystr).
Definition add_node (ns : list pystr) (n : pystr) : list pystr := if existsb (streq n) ns then ns else ns ++ [n].
Definition add_edge (g : graph) (n p : pystr) : graph := (add_node (add_node (fst g) n) p, snd g ++ [(n, p)]).
(** npredecessors *)
Definition npred (es : list (pystr * pystr)) (n : pystr) : nat := length (filter (fun e => streq (fst e) n) es).
(** successors *)
Definition succs (es : list (pystr * pystr)) (p : pystr) : list pystr := map fst (filter (fun e => streq (snd e) p) es).
Definition count (cnt : list (pystr * nat)) (n : pystr) : nat := match dget streq cnt n with Some k => k | None => 0 end.
(** done(): one less to wait for; at none, the node is ready *)
Definition release (st : list (pystr * nat) * list pystr) (n : pystr) : list (pystr * nat) * list pystr :=
  let k := count (fst st) n - 1 in
  (dset streq (fst st) n k, if k =? 0 then snd st ++ [n] else snd st).
(** get_ready() gives all the ready nodes and done() is called on each of them in that order, so
    the nodes come out as from a queue. *)
Fixpoint drain (es : list (pystr * pystr)) (fuel : nat) (cnt : list (pystr * nat)) (queue out : list pystr) : list pystr :=
  match fuel, queue with
  | S fuel', p :: queue' =>
      let st := fold_left release (succs es p) (cnt, queue') in
      drain es fuel' (fst st) (snd st) (out ++ [p])
  | _, _ => out
  end.
(** prepare() looks for a cycle by following successors and raises CycleError, a ValueError. Here
    the error is raised when some node never becomes ready; [C83_cycle] says that this is when
    there is a cycle. *)
Definition static_order (g : graph) : res (list pystr) :=
  let cnt := map (fun n => (n, npred (snd g) n)) (fst g) in
  let ready := filter (fun n => npred (snd g) n =? 0) (fst g) in
  let out := drain (snd g) (length (fst g)) cnt ready [] in
  if length out =? length (fst g) then Ok out else Raise ValueError.

Section Script.
Context (ws : N -> bool) (num : pystr -> option Z).

(** * The variables: lines 37-43. var.text.strip() of an empty element raises AttributeError. *)
Definition add_var (st : list (pystr * pystr) * graph) (v : var) : res (list (pystr * pystr) * graph) :=
  match snd v with
  | None => Raise AttributeError
  | Some t =>
      let i := fst v in
      let g := (add_node (fst (snd st)) i, snd (snd st)) in
      Ok (dset streq (fst st) i (strip ws t), fold_left (fun g m => add_edge g i m) (refs t) g)
  end.
Fixpoint add_vars (st : list (pystr * pystr) * graph) (vs : list var) : res (list (pystr * pystr) * graph) :=
  match vs with
  | [] => Ok st
  | v :: vs' => do st' <- add_var st v; add_vars st' vs'
  end.
(** lines 44-45 *)
Definition define (k t : pystr) : pystr := k ++ lit "=[" ++ t ++ lit "]".
Fixpoint var_lines (vars : list (pystr * pystr)) (ks : list pystr) : res (list pystr) :=
  match ks with
  | [] => Ok []
  | k :: ks' =>
      match dget streq vars k with
      | None => Raise KeyError
      | Some t => do l <- var_lines vars ks'; Ok (define k t :: l)
      end
  end.

(** * The rules: lines 46-48. sorted() works out every key first. *)
Fixpoint keyed (rs : list rule) : res (list (Z * rule)) :=
  match rs with
  | [] => Ok []
  | r :: rs' =>
      match fst r with
      | None => Raise TypeError
      | Some i =>
          match num i with
          | None => Raise ValueError
          | Some z => do l <- keyed rs'; Ok ((z, r) :: l)
          end
      end
  end.
Definition byz (a b : Z * rule) : bool := Z.leb (fst a) (fst b).
Fixpoint rule_lines (rs : list (Z * rule)) : res (list pystr) :=
  match rs with
  | [] => Ok []
  | r :: rs' =>
      match snd (snd r) with
      | None => Raise AttributeError
      | Some t => do l <- rule_lines rs'; Ok (strip ws t :: l)
      end
  end.
(** ";\n" *)
Definition eol : pystr := [59; 10]%N.
(** lines 35-49 *)
Definition rules_text (s : segmentation) : res pystr :=
  do st <- add_vars ([], ([], [])) (fst s);
  do ks <- static_order (snd st);
  do vl <- var_lines (fst st) ks;
  do kr <- keyed (snd s);
  do rl <- rule_lines (isort byz kr);
  Ok (join eol (vl ++ rl) ++ eol).

(** * The pieces: lines 65-72 *)
Definition slice (a b : nat) (l : pystr) : pystr := skipn a (firstn b l).   (* l[a:b] *)
Fixpoint pieces_from (last : nat) (l : pystr) (bs : list nat) : list pystr :=
  match bs with
  | [] => []
  | b :: bs' => slice last b l :: pieces_from b l bs'
  end.
Definition out_line (brk : iter) (data : pystr) : pystr :=
  let l := strip ws data in join (lit "|") (pieces_from 0 l (brk l)) ++ [10%N].

(** * The script: lines 25-75. [dir] is --dir and --noflatten; the segmentation is what
    doc.find gives; [known] says that --type is a key of breaktypes; [lang] is the break iterator
    of the locale --lang, if there is one. The result is what is written, None when the output
    is not even opened. sys.stderr(...) raises TypeError. *)
Definition break_text (icu : pystr -> res iter) (dir : option bool) (known : bool) (seg : option segmentation)
    (lang : option iter) (infile : list pystr) : res (option (list pystr)) :=
  do brk <- match dir with
            | Some true => Ok None
            | Some false =>
                if known then
                  match seg with
                  | None => Raise TypeError
                  | Some s => do r <- rules_text s; do b <- icu r; Ok (Some b)
                  end
                else Raise KeyError
            | None =>
                match lang with
                | None => Ok None
                | Some b => if known then Ok (Some b) else Raise KeyError
                end
            end;
  match brk with
  | None => Ok None
  | Some b => Ok (Some (map (out_line b) infile))
  end.
End Script.

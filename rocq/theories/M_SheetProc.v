(** Model of how a spreadsheet drives the making of an LDML document and the other way round:
    /repo/lib/sldr/sheet.py 9-41 (the four expressions), 103-143 (actions that write LDML),
    179-225 (actions that write the spreadsheet), 234-282 (Sheet.process).
    A row is the list of its cells without the first column. The inner loops of process, which
    go on while rows belong to a table, are a state of one loop over the rows. An error stops
    the loop; what was done before stays. Ldml.ensure_path and Ldml.find are not modelled here
    (see M_Paths): the actions give what is asked of them. *)
From Coq Require Import String.
From Verif Require Import Py.
Local Open Scope list_scope.
Local Open Scope nat_scope.

Definition dollar : N := 36%N.
Definition newline : N := 10%N.

(** [^$]+ and what follows; no match if it is empty *)
Fixpoint span_not (x : N) (s : pystr) : pystr * pystr :=
  match s with
  | [] => ([], [])
  | c :: s' => if N.eqb c x then ([], s) else let '(a, b) := span_not x s' in (c :: a, b)
  end.
(** (.* ) followed by $: up to the end, or up to a newline that ends the text *)
Fixpoint to_end (s : pystr) : option pystr :=
  match s with
  | [] => Some []
  | c :: s' => if N.eqb c newline then match s' with [] => Some [] | _ => None end
               else match to_end s' with Some r => Some (c :: r) | None => None end
  end.
(** t1string, lines 20-24 *)
Definition t1_match (s : pystr) : option (pystr * pystr) :=
  let '(beg, r) := span_not dollar s in
  match beg with
  | [] => None
  | _ => match strip_prefix (lit "$row") r with
         | Some e => match to_end e with Some e => Some (beg, e) | None => None end
         | None => None
         end
  end.
(** t2string and t2rstring, lines 26-40: [first] and [second] are "$col" and "$row", or the
    other way round *)
Definition t2_match (first second s : pystr) : option (pystr * pystr * pystr) :=
  let '(beg, r) := span_not dollar s in
  match beg, strip_prefix first r with
  | _ :: _, Some r =>
      let '(mid, r) := span_not dollar r in
      match mid, strip_prefix second r with
      | _ :: _, Some e => match to_end e with Some e => Some (beg, mid, e) | None => None end
      | _, _ => None
      end
  | _, _ => None
  end.

(** estring, lines 9-18. [closes q s]: something, the quote and a bracket follow *)
Fixpoint closes (q : N) (s : pystr) : bool :=
  match s with
  | c :: s' =>
      if N.eqb c newline then false
      else match s' with
           | a :: b :: _ => if (N.eqb a q && N.eqb b 93)%bool then true else closes q s'
           | _ => false
           end
  | [] => false
  end.
(** the part before the last "]" that is not the first character *)
Fixpoint before_last (s : pystr) : option pystr :=
  match s with
  | [] => None
  | c :: s' => match before_last s' with
               | Some r => Some (c :: r)
               | None => match s' with 93%N :: _ => Some [c] | _ => None end
               end
  end.
(** [None]: no match. Otherwise atname, and whether there is an atvalue *)
Definition e_match (s : pystr) : option (option (pystr * bool)) :=
  let '(elname, r) := span_not 91%N s in
  match elname with
  | [] => None
  | _ =>
      match strip_prefix (lit "[@") r with
      | None => Some None
      | Some r =>
          let '(name, r) := span_not 61%N r in
          match name with
          | [] => Some None
          | _ =>
              match r with
              | _ :: q :: v => if ((N.eqb q 34 || N.eqb q 39) && closes q v)%bool then Some (Some (name, true))
                               else match before_last name with Some n => Some (Some (n, false)) | None => Some None end
              | _ => match before_last name with Some n => Some (Some (n, false)) | None => Some None end
              end
          end
      end
  end.

(** ** What a row asks for *)
Inductive job :=
| JItem (row : list pystr) (path : pystr) (attr : option pystr)    (* attr: the name, if the path ends with [@name] *)
| J1 (row : list pystr) (p1 p2 : pystr)
| J2 (row : list pystr) (p1 p2 p3 : pystr) (heads : list pystr)
| J2r (row : list pystr) (p1 p2 p3 : pystr) (heads : list pystr)
| J2x (row : list pystr) (ps : list (pystr * pystr)).
(** the table the rows belong to; no match is noticed only when there is a row *)
Inductive mode :=
| Top
| M1 (m : option (pystr * pystr))
| M2 (m : option (pystr * pystr * pystr)) (heads : list pystr)
| M2r (m : option (pystr * pystr * pystr)) (heads : list pystr)
| M2x (ps : list (pystr * pystr)).

Definition cell0 (row : list pystr) : pystr := match row with c :: _ => c | [] => [] end.
(** lines 249-252, 259-262 *)
Fixpoint heads_of (l : list pystr) : list pystr :=
  match l with [] :: _ | [] => [] | h :: l' => h :: heads_of l' end.
Definition heads (row : list pystr) : list pystr := heads_of (skipn 2 row).
(** s[n:-1] *)
Definition inner (n : nat) (s : pystr) : pystr := skipn n (removelast s).
(** lines 269-273 *)
Fixpoint t1_all (l : list pystr) : res (list (pystr * pystr)) :=
  match l with
  | [] => Ok []
  | s :: l' => match t1_match s with
               | None => Raise AttributeError
               | Some m => do r <- t1_all l'; Ok (m :: r)
               end
  end.

(** lines 237-282: a row that does not belong to the table before it *)
Definition top_row (row : list pystr) : res (mode * list job) :=
  let t := cell0 row in
  match t with
  | [] => Ok (Top, [])
  | _ =>
      if streq (firstn 8 t) (lit "table1d(") then Ok (M1 (t1_match (inner 8 t)), [])
      else if streq (firstn 8 t) (lit "table2d(") then Ok (M2 (t2_match (lit "$col") (lit "$row") (inner 8 t)) (heads row), [])
      else if streq (firstn 9 t) (lit "table2dr(") then Ok (M2r (t2_match (lit "$row") (lit "$col") (inner 9 t)) (heads row), [])
      else if streq (firstn 9 t) (lit "table2dx(") then
        do ps <- t1_all (split_on 44%N (inner 9 t)); Ok (M2x ps, [])
      else match e_match (last (split_on 47%N t) []) with
           | None => Raise AttributeError
           | Some a =>
               match nth_error row 2 with
               | None => Raise IndexError
               | Some _ => Ok (Top, [JItem row t (match a with Some (n, false) => Some n | _ => None end)])
               end
           end
  end.
(** the conditions of the inner loops, lines 243, 254, 264, 275 *)
Definition in_table (row : list pystr) : bool := match row with (_ :: _) :: _ => true | _ => false end.
Definition in_table2dx (row : list pystr) : bool := match row with [] :: _ :: _ => true | _ => false end.
Definition step_row (m : mode) (row : list pystr) : res (mode * list job) :=
  match m with
  | Top => top_row row
  | M1 x => if in_table row then match x with Some (a, b) => Ok (m, [J1 row a b]) | None => Raise AttributeError end
            else top_row row
  | M2 x hs => if in_table row then match x with Some (a, b, c) => Ok (m, [J2 row a b c hs]) | None => Raise AttributeError end
               else top_row row
  | M2r x hs => if in_table row then match x with Some (a, b, c) => Ok (m, [J2r row a b c hs]) | None => Raise AttributeError end
                else top_row row
  | M2x ps => if in_table2dx row then Ok (m, [J2x row ps]) else top_row row
  end.
(** lines 234-282: the jobs with the number of their row, and the error if there is one *)
Fixpoint process (i : nat) (m : mode) (rows : list (list pystr)) : list (nat * job) * option exn :=
  match rows with
  | [] => ([], None)
  | row :: rows' =>
      match step_row m row with
      | Raise e => ([], Some e)
      | Ok (m', js) => let '(r, e) := process (S i) m' rows' in (map (pair i) js ++ r, e)
      end
  end.

(** ** To LDML: lines 103-143 *)
Inductive write := WText (path value : pystr) | WPath (path : pystr).
Definition filled (row : list pystr) (k : nat) : option pystr :=
  match nth_error row k with Some [] | None => None | Some v => Some v end.
Fixpoint number {A} (k : nat) (l : list A) : list (nat * A) :=
  match l with [] => [] | x :: l' => (k, x) :: number (S k) l' end.
Definition text_write (row : list pystr) (k : nat) (path : pystr) : list write :=
  match filled row k with Some v => [WText path v] | None => [] end.
Definition ldml_writes (j : job) : list write :=
  match j with
  | JItem row path (Some _) =>
      match filled row 2 with Some v => [WPath (removelast path ++ lit "='" ++ v ++ lit "']")] | None => [] end
  | JItem row path None => text_write row 2 path
  | J1 row p1 p2 => text_write row 2 (p1 ++ cell0 row ++ p2)
  | J2 row p1 p2 p3 hs => flat_map (fun '(k, h) => text_write row k (p1 ++ h ++ p2 ++ cell0 row ++ p3)) (number 2 hs)
  | J2r row p1 p2 p3 hs => flat_map (fun '(k, h) => text_write row k (p1 ++ cell0 row ++ p2 ++ h ++ p3)) (number 2 hs)
  | J2x row ps =>
      match nth_error row 1 with
      | Some [] | None => []
      | Some item => flat_map (fun '(k, (a, b)) => text_write row k (a ++ item ++ b)) (number 2 ps)
      end
  end.

(** ** To the spreadsheet: lines 179-225. Column 1 is the one before the cells of the row; the
    value is None if the element has no text. *)
Record found := { f_attrs : list (pystr * pystr); f_text : option pystr }.
Section Ods.
  Variable find : pystr -> option found.
  Definition put_value (col : nat) (v : option pystr) : list (nat * option pystr) :=
    match v with Some [] => [] | _ => [(col, v)] end.
  Definition put_text (col : nat) (path : pystr) : list (nat * option pystr) :=
    match find path with Some e => put_value col (f_text e) | None => [] end.
  Definition ods_writes (j : job) : list (nat * option pystr) :=
    match j with
    | JItem _ path (Some a) =>
        match find path with
        | Some e => put_value 4 (match dget streq (f_attrs e) a with Some v => Some v | None => Some [] end)
        | None => []
        end
    | JItem _ path None => put_text 4 path
    | J1 row p1 p2 => put_text 4 (p1 ++ cell0 row ++ p2)
    | J2 row p1 p2 p3 hs => flat_map (fun '(k, h) => put_text k (p1 ++ h ++ p2 ++ cell0 row ++ p3)) (number 4 hs)
    | J2r row p1 p2 p3 hs => flat_map (fun '(k, h) => put_text k (p1 ++ cell0 row ++ p2 ++ h ++ p3)) (number 4 hs)
    | J2x row ps =>
        match nth_error row 1 with
        | Some [] | None => []
        | Some item => flat_map (fun '(k, (a, b)) => put_text k (a ++ item ++ b)) (number 4 ps)
        end
    end.
End Ods.

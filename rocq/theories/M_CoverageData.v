(** Model of what the coverage script reads before it counts (/repo/scripts/sldrcoverage): the
    dates (9-18), the list of locales (77-87), the supplemental files (131-153). The documents are
    given by the elements that the searches find, in order, with their attributes. *)
From Verif Require Import Py M_Files M_Coverage.
Local Open Scope list_scope.
Local Open Scope Z_scope.

(** * Dates: lines 9-18 *)
(** int(x) of decimal digits; Python also takes signs, white space and underscores, which no date
    has between its hyphens *)
Definition dec (s : pystr) : Z := fold_left (fun a c => 10 * a + (Z.of_N c - 48)) s 0.
Definition int_ (s : pystr) : res Z :=
  match s with [] => Raise ValueError | _ => if forallb is_digit s then Ok (dec s) else Raise ValueError end.
Fixpoint ints (l : list pystr) : res (list Z) :=
  match l with [] => Ok [] | x :: l' => do n <- int_ x; do r <- ints l'; Ok (n :: r) end.
(** lines 12-13 *)
Definition cmp_ (a b : Z) : Z := if Z.ltb a b then -1 else if Z.gtb a b then 1 else 0.
Record date := Date { year : Z; month : Z; day : Z }.
(** t[i] *)
Definition at_ (t : list Z) (i : nat) : res Z := match nth_error t i with Some x => Ok x | None => Raise IndexError end.
(** lines 15-18; [n] is datetime.date.today() *)
Definition compare_now (n : date) (s : pystr) : res Z :=
  do t <- ints (split_on 45 s);
  do y <- at_ t 0;
  if negb (Z.eqb (cmp_ (year n) y) 0) then Ok (cmp_ (year n) y) else
  do m <- at_ t 1;
  if negb (Z.eqb (cmp_ (month n) m) 0) then Ok (cmp_ (month n) m) else
  do d <- at_ t 2;
  Ok (cmp_ (day n) d).

(** * The locales: lines 77-87 *)
(** an entry of a directory: its name and, if it is a directory, the names in it *)
Definition entry : Type := pystr * option (list pystr).
Definition stem4 (s : pystr) : pystr := firstn (length s - 4) s.
Definition of_entry (e : entry) : list pystr :=
  if endswith (lit ".xml") (fst e) then [stem4 (fst e)]
  else match snd e with
       | Some names => map stem4 (filter (endswith (lit ".xml")) names)
       | None => []
       end.
(** without --indir the loop is over None *)
Definition locales (given : list pystr) (indir : option (list (list entry))) : res (list pystr) :=
  match given with
  | _ :: _ => Ok given
  | [] => match indir with
          | None => Raise TypeError
          | Some dirs => Ok (isort strleb (to_set (flat_map (flat_map of_entry) dirs)))
          end
  end.

(** * The supplemental files: lines 131-153 *)
(** str.replace: from left to right, not looking at what was put in *)
Fixpoint replace_ (fuel : nat) (old new s : pystr) : pystr :=
  match fuel with
  | O => s
  | S f =>
      match strip_prefix old s with
      | Some r => new ++ replace_ f old new r
      | None => match s with c :: s' => c :: replace_ f old new s' | [] => [] end
      end
  end.
Definition py_replace (old new s : pystr) : pystr := replace_ (S (length s)) old new s.
(** line 134: the text after the first character of the key; the right side is evaluated first *)
Definition var_value (v : pystr) : pystr := py_replace (lit "\x{22}") [34%N] (py_replace (lit "++") (lit "+") v).
Definition add_var (vars : vars_t) (kv : option pystr * option pystr) : res vars_t :=
  match snd kv with
  | None => Raise AttributeError
  | Some v => match fst kv with
              | None => Raise TypeError
              | Some k => Ok (dset streq vars (tl k) (var_value v))
              end
  end.
Fixpoint read_vars (vars : vars_t) (l : list (option pystr * option pystr)) : res vars_t :=
  match l with [] => Ok vars | x :: l' => do v <- add_var vars x; read_vars v l' end.
(** lines 40-44: one object per element; the attributes but value, with their text changed *)
Definition attrs : Type := list (pystr * pystr).
Definition fix_attr (v : pystr) : pystr := py_replace [93%N] [92%N; 93%N] (py_replace [91%N] [92%N; 91%N] (py_replace [39%N] [34%N] v)).
Definition obj (a : attrs) : attrs := map (fun kv => (fst kv, fix_attr (snd kv))) (filter (fun kv => negb (streq (fst kv) (lit "value"))) a).
Definition as_level (a : attrs) : clevel :=
  let g := fun k => dget streq (obj a) k in
  Cl (g (lit "inLanguage")) (g (lit "inScript")) (g (lit "inTerritory")) (g (lit "match")).
(** lines 135-139; the value is an attribute the DTD requires *)
Definition value_of (a : attrs) : pystr := opt (dget streq a (lit "value")).
Definition add_level (levels : levels_t) (a : attrs) : levels_t :=
  let val := value_of a in
  let old := match dget streq levels val with Some l => l | None => [] end in
  dset streq levels val (old ++ [(as_level a, None)]).
Definition read_levels (l : list attrs) : levels_t := fold_left add_level l [].
(** lines 141-144: ordering and territories *)
Definition add_calendar (cal : list (pystr * list pystr)) (p : pystr * pystr) : list (pystr * list pystr) :=
  let cs := split_on 32 (fst p) in
  fold_left (fun cal t => dset streq cal t cs) (split_on 32 (snd p)) cal.
Definition read_calendars (l : list (pystr * pystr)) : list (pystr * list pystr) := fold_left add_calendar l [].
(** lines 145-153 *)
Record currency := Cur { from_ : option pystr; to_ : option pystr; code : pystr }.
Definition dflt (d : pystr) (o : option pystr) : pystr := match o with Some s => s | None => d end.
Fixpoint first_current (n : date) (cs : list currency) : res (option pystr) :=
  match cs with
  | [] => Ok None
  | c :: cs' =>
      do a <- compare_now n (dflt (lit "0000-00-00") (from_ c));
      if Z.ltb a 0 then first_current n cs' else
      do b <- compare_now n (dflt (lit "9999-99-99") (to_ c));
      if Z.gtb b 0 then first_current n cs' else Ok (Some (code c))
  end.
Fixpoint read_currencies (n : date) (cur : list (pystr * pystr)) (l : list (pystr * list currency)) : res (list (pystr * pystr)) :=
  match l with
  | [] => Ok cur
  | (r, cs) :: l' =>
      do o <- first_current n cs;
      read_currencies n (match o with Some x => dset streq cur r x | None => cur end) l'
  end.

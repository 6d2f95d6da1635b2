(** Model of lib/sldr/collation.py (escapes, sort keys, itemise, tailoring parser, DUCET
    file lines). Tailored key calculation, minimise and asICU are not in this file. *)
From Verif Require Import Py M_UnicodeSets.
Open Scope N_scope.

(** collation.py:13 *)
Definition escs : pystr := lit "!" ++ [34] ++ lit "#$%&()*+,-./:;<=>?@[\]^_`{|}~".

(** [("00000000" + hex(i)[2:])[-8:]] for i below 2^32, [("0000" + hex(i)[2:])[-4:]] below 2^16 *)
Definition hexesc_of (i : N) : pystr :=
  if N.ltb 65535 i then lit "\U" ++ hexpad 8 i else lit "\u" ++ hexpad 4 i.

(** collation.py:10-34 [escape]. [isM k] is [ud.category(k).startswith("M")]. *)
Fixpoint coll_escape_aux (isM : N -> bool) (allchars lastbase : bool) (s : pystr) : pystr :=
  match s with
  | [] => []
  | k :: s' =>
      if inchars k escs then 92 :: k :: coll_escape_aux isM allchars lastbase s'
      else if N.eqb k 39 then 39 :: 39 :: coll_escape_aux isM allchars lastbase s'
      else if (N.ltb 32 k && N.ltb k 127)%bool then k :: coll_escape_aux isM allchars lastbase s'
      else if (lastbase || negb (isM k))%bool then k :: coll_escape_aux isM allchars true s'
      else if allchars then hexesc_of k ++ coll_escape_aux isM allchars lastbase s'
      else k :: coll_escape_aux isM allchars lastbase s'
  end.
Definition coll_escape (isM : N -> bool) (allchars : bool) (s : pystr) : pystr :=
  coll_escape_aux isM allchars false s.

(** [n] characters of the class [[0-9A-F]] *)
Fixpoint take_uhex (n : nat) (s : pystr) : option pystr :=
  match n with
  | O => Some []
  | S n' => match s with
            | c :: s' => if is_upper_hex c then
                           match take_uhex n' s' with Some h => Some (c :: h) | None => None end
                         else None
            | [] => None
            end
  end.
(** collation.py:38: the pattern at the start of [s] (no IGNORECASE: the flag is passed in
    the place of [count]). *)
Definition uhexesc_at (s : pystr) : option (nat * N) :=
  match s with
  | 92 :: 85 :: r => match take_uhex 8 r with Some h => Some (10%nat, hexnum h) | None => None end
  | 92 :: 117 :: r => match take_uhex 4 r with Some h => Some (6%nat, hexnum h) | None => None end
  | _ => None
  end.
(** [re.sub] with a limit on the number of replacements: collation.py:38 has
    [count = re.I = 2]. *)
Fixpoint uhexsub (count skip : nat) (s : pystr) : res pystr :=
  match s with
  | [] => Ok []
  | c :: s' =>
      match skip with
      | S k => uhexsub count k s'
      | O => match count, uhexesc_at s with
             | S n, Some (len, v) => do x <- pychr v; do b <- uhexsub n (len - 1) s'; Ok (x :: b)
             | _, _ => do b <- uhexsub count 0 s'; Ok (c :: b)
             end
      end
  end.
(** collation.py:39: [re.sub(r'\\(.)', r'\1', s)]; the dot does not match a newline *)
Fixpoint unbackslash (s : pystr) : pystr :=
  match s with
  | [] => []
  | 92 :: ((c :: s'') as s') => if N.eqb c 10 then 92 :: unbackslash s' else c :: unbackslash s''
  | c :: s' => c :: unbackslash s'
  end.
(** collation.py:40: [s.replace("''", "'")] *)
Fixpoint unquote (s : pystr) : pystr :=
  match s with
  | [] => []
  | 39 :: ((c :: s'') as s') => if N.eqb c 39 then 39 :: unquote s'' else 39 :: unquote s'
  | c :: s' => c :: unquote s'
  end.
(** collation.py:36-41 [unescape] *)
Definition coll_unescape (s : pystr) : res pystr :=
  do t <- uhexsub 2 0 s; Ok (unquote (unbackslash t)).

(** * Sort keys. Weights are any type with a comparison and a zero: the code uses int for
    DUCET weights and float for tailored ones. *)
Section Keys.
  Context {W : Type} (wcmp : W -> W -> comparison) (zero : W).

  Definition weqb (a b : W) : bool := match wcmp a b with Eq => true | _ => false end.

  (** collation.py:75-84 [stripzero] (the None case is handled by the callers' None tests) *)
  Fixpoint stripzero (l : list W) : list W :=
    match l with
    | [] => []
    | x :: l' =>
        match stripzero l' with
        | [] => if weqb x zero then [] else [x]
        | r => x :: r
        end
    end.

  (** a SortKey: one list of weights per level *)
  Notation skey := (list (list W)).

  Definition level (a : skey) (i : nat) : res (list W) :=
    match nth_error a i with Some l => Ok l | None => Raise IndexError end.

  (** collation.py:97-103: levels [i], [i+1], ... ([n] of them) *)
  Fixpoint diff_from (n i : nat) (a b : skey) : res Z :=
    match n with
    | O => Ok 4%Z
    | S n' =>
        do la <- level a i; do lb <- level b i;
        match lcmp wcmp (stripzero la) (stripzero lb) with
        | Lt => Ok (Z.of_nat i + 1)%Z
        | Gt => Ok (- (Z.of_nat i + 1))%Z
        | Eq => diff_from n' (S i) a b
        end
    end.
  (** collation.py:94-104 [diffLevel] *)
  Definition diffLevel (a b : option skey) : res Z :=
    match a, b with
    | Some a, Some b => diff_from 3 0 a b
    | _, _ => Ok 0%Z
    end.
  (** collation.py:157-159 [SortKey.cmp] *)
  Definition sk_cmp (self : skey) (other : option skey) : res Z := diffLevel other (Some self).
  (** collation.py:167-186: the comparison operators *)
  Definition sk_lt (self : skey) (other : option skey) : res bool := do c <- sk_cmp self other; Ok (Z.ltb c 0).
  Definition sk_gt (self : skey) (other : option skey) : res bool := do c <- sk_cmp self other; Ok (Z.ltb 0 c).
  Definition sk_eq (self : skey) (other : option skey) : res bool := do c <- sk_cmp self other; Ok (Z.eqb c 0).
  Definition sk_ne (self : skey) (other : option skey) : res bool := do c <- sk_cmp self other; Ok (negb (Z.eqb c 0)).
  Definition sk_ge (self : skey) (other : option skey) : res bool := do c <- sk_cmp self other; Ok (Z.leb 0 c).
  Definition sk_le (self : skey) (other : option skey) : res bool := do c <- sk_cmp self other; Ok (Z.leb c 0).

  (** list equality after stripping *)
  Definition weq_list (a b : list W) : bool := match lcmp wcmp a b with Eq => true | _ => false end.
  (** collation.py:89-92: the loop of [cmpKey] over levels [i], ..., *)
  Fixpoint cmpKey_from (n i : nat) (a b : skey) : res bool :=
    match n with
    | O => Ok true
    | S n' =>
        do la <- level a i; do lb <- level b i;
        if weq_list (stripzero la) (stripzero lb) then cmpKey_from n' (S i) a b else Ok false
    end.
  (** collation.py:86-92 [cmpKey] *)
  Definition cmpKey (a b : option skey) (lev : nat) : res bool :=
    match a, b with
    | Some a, Some b =>
        if (Nat.ltb (length a) lev || Nat.ltb (length b) lev)%bool then Ok false
        else cmpKey_from lev 0 a b
    | _, _ => Ok false
    end.

  (** [sorted(keys)]: Python's sort only calls [<]; [x] is put before [y] unless [y < x].
      Stable insertion sort stands for timsort. *)
  Definition sk_leb (a b : skey) : bool :=
    match sk_lt b (Some a) with Ok false => true | _ => false end.
  Definition sk_sorted (l : list skey) : list skey := isort sk_leb l.

  (** * collation.py:43-73 [ducetSortKey] *)
  Definition key3 := (list W * list W * list W)%type.

  (** [zip] of the weights of a DUCET entry; an empty entry gives an empty key *)
  Definition zip3 (raw : list (W * W * W)) : option key3 :=
    match raw with
    | [] => None
    | _ => Some (map (fun t => fst (fst t)) raw, map (fun t => snd (fst t)) raw, map snd raw)
    end.
  (** collation.py:46,55-61: the key of a prefix. [extra] is the lookup in [extra] (the
      [.key] of the element; an element whose key is empty counts as absent), [fn] the
      function argument or the DUCET lookup when it is not given. [d] is the table. *)
  Definition key_of (d : list (pystr * list (W * W * W))) (extra : pystr -> option key3)
             (fn : option (pystr -> option key3)) (p : pystr) : option key3 :=
    let dlambda := match dget streq d p with Some raw => zip3 raw | None => None end in
    let first := match extra p with
                 | Some k => Some k
                 | None => match fn with Some f => f p | None => dlambda end
                 end in
    match first with Some k => Some k | None => dlambda end.

  (** the inner search: the longest prefix of [k], of length at most [i], with a key *)
  Fixpoint longest (look : pystr -> option key3) (k : pystr) (i : nat) : option (nat * key3) :=
    match i with
    | O => None
    | S i' => match look (firstn i k) with
              | Some key => Some (i, key)
              | None => longest look k i'
              end
    end.
  (** the while loop; [fuel] bounds the number of segments *)
  Fixpoint sortkey_loop (look : pystr -> option key3) (fuel : nat) (k : pystr) (acc : key3) : res key3 :=
    match k with
    | [] => Ok acc
    | _ =>
        match longest look k (length k) with
        | None => Ok acc
        | Some (i, (a, b, c)) =>
            match fuel with
            | O => Raise OutOfFuel
            | S f => sortkey_loop look f (skipn i k)
                       (fst (fst acc) ++ a, snd (fst acc) ++ b, snd acc ++ c)
            end
        end
    end.
  Definition strip_all (l : list W) : list W := filter (fun v => negb (weqb v zero)) l.
  Definition ducetSortKey (look : pystr -> option key3) (k : pystr) : res skey :=
    do r <- sortkey_loop look (length k) k ([], [], []);
    let '(a, b, c) := r in
    if Nat.eqb (length k) 1 then Ok [a; b; c]
    else Ok [strip_all a; strip_all b; strip_all c].
End Keys.

(** * Collation.itemise, collation.py:496-503. [known x] is [x in self or x in self.ducet]. *)
Fixpoint itemise_from (known : pystr -> bool) (curr : pystr) (s : pystr) : list pystr :=
  match s with
  | [] => [curr]
  | c :: s' =>
      if known (curr ++ [c]) then itemise_from known (curr ++ [c]) s'
      else curr :: itemise_from known [c] s'
  end.
Definition itemise (known : pystr -> bool) (s : pystr) : list pystr := itemise_from known [] s.

(** * Tailoring parser, collation.py:195-249 *)
(** collation.py:567-578: the fields of [CollElement] that parse sets *)
Record celt := CElt { ce_base : pystr; ce_level : nat; ce_before : N; ce_order : nat * nat; ce_exp : pystr }.
Notation coll := (list (pystr * celt)).

(** collation.py:246-249 [__setitem__] *)
Definition coll_set (c : coll) (key : pystr) (v : celt) : res coll :=
  if dmem streq c key then Raise KeyError else Ok (dset streq c key v).

(** collation.py:234-235 [while key in self: key += " "] *)
Fixpoint fresh_key (fuel : nat) (c : coll) (key : pystr) : res pystr :=
  if dmem streq c key then
    match fuel with O => Raise OutOfFuel | S f => fresh_key f c (key ++ [32]) end
  else Ok key.

Section Parse.
  (** [\s] / [str.strip] white space, [\d] and the value of a digit *)
  Variable ws : N -> bool.
  Variable isd : N -> bool.
  Variable dval : N -> N.

  Fixpoint lstrip (s : pystr) : pystr :=
    match s with c :: s' => if ws c then lstrip s' else s | [] => [] end.
  Definition strip (s : pystr) : pystr := rev (lstrip (rev (lstrip s))).

  (** collation.py:209: [re.sub(r'^#.*$', '', string, flags=re.M)]: lines starting with a
      hash are emptied *)
  Definition drop_comment_lines (s : pystr) : pystr :=
    join [10] (map (fun l => match l with 35 :: _ => [] | _ => l end) (split_on 10 s)).

  (** collation.py:221,225: [re.sub(r'\s#.*$', '', s, flags=re.M)]: a white space followed by
      a hash removes everything up to the end of the line. [skip] is true while removing. *)
  Fixpoint drop_comments (skip : bool) (s : pystr) : pystr :=
    match s with
    | [] => []
    | c :: s' =>
        if skip then (if N.eqb c 10 then
                        match s' with
                        | 35 :: _ => if ws c then drop_comments true s' else c :: drop_comments false s'
                        | _ => c :: drop_comments false s'
                        end
                      else drop_comments true s')
        else match s' with
             | 35 :: _ => if ws c then drop_comments true s' else c :: drop_comments false s'
             | _ => c :: drop_comments false s'
             end
    end.

  (** collation.py:211: [re.split(r'([<=]+)', run)] as the first text and the list of
      (operator, text) pairs *)
  Definition isop (c : N) : bool := (N.eqb c 60 || N.eqb c 61)%bool.
  Fixpoint op_split (s : pystr) : pystr * list (pystr * pystr) :=
    match s with
    | [] => ([], [])
    | c :: s' =>
        let (t, r) := op_split s' in
        if isop c then
          match t, r with
          | [], (o, t') :: r' => ([], (c :: o, t') :: r')
          | _, _ => ([], ([c], t) :: r)
          end
        else (c :: t, r)
    end.

  (** collation.py:212: the regular expression for the reset (optional ampersand, optional
      [before N] mark, base, trailing white space) on the unescaped first text:
      None when it does not match, else (base, before). The base may not contain a newline;
      trailing white space is dropped. *)
  Definition before_mark (s : pystr) : option (N * pystr) :=
    match strip_prefix (lit "[before") s with
    | Some (w :: r) =>
        if ws w then
          match lstrip r with
          | d :: r' => if isd d then
                         match lstrip r' with
                         | 93 :: r'' => Some (dval d, lstrip r'')
                         | _ => None
                         end
                       else None
          | [] => None
          end
        else None
    | _ => None
    end.
  Definition rstrip (s : pystr) : pystr := rev (lstrip (rev s)).
  Definition base_match (s : pystr) : option (pystr * N) :=
    let s1 := lstrip s in
    let s2 := match s1 with 38 :: r => lstrip r | _ => s1 end in
    let (before, s3) := match before_mark s2 with Some (n, r) => (n, r) | None => (0, s2) end in
    let b := rstrip s3 in
    if inchars 10 b then None else Some (b, before).

  (** position of the first [c] *)
  Fixpoint find_char (c : N) (s : pystr) : option nat :=
    match s with
    | [] => None
    | x :: s' => if N.eqb x c then Some O else match find_char c s' with Some i => Some (S i) | None => None end
    end.

  (** collation.py:221-224: the level of an operator *)
  Definition op_level (op : pystr) : nat :=
    let s := drop_comments false op in
    if streq s [61] then 4%nat else length (filter (N.eqb 60) s).
  (** collation.py:225-233: the element and its expansion *)
  Definition rel_key (text : pystr) : res (pystr * pystr) :=
    do key <- coll_unescape (drop_comments false text);
    match find_char 47 key with
    | Some (S i) => Ok (strip (firstn (S i) key), strip (skipn (S (S i)) key))
    | _ => Ok (key, [])
    end.

  (** collation.py:220-244: one relation *)
  Definition parse_rel (n i : nat) (st : coll * pystr * N) (rel : pystr * pystr) : res (coll * pystr * N) :=
    let '(c, base, before) := st in
    do (key0, expstr) <- rel_key (snd rel);
    do key <- fresh_key (length c) c key0;
    do c' <- coll_set c key (CElt base (op_level (fst rel)) before (n, i) expstr);
    Ok (c', key, 0).
  (** the loop of lines 220-244. An exception (unescape can raise ValueError) leaves the
      entries added so far in the dictionary, so the result is the dictionary and the
      exception, if any. *)
  Fixpoint parse_rels (n i : nat) (st : coll * pystr * N) (rels : list (pystr * pystr)) : coll * option exn :=
    match rels with
    | [] => (fst (fst st), None)
    | r :: rels' => match parse_rel n i st r with
                    | Ok st' => parse_rels n (S (S i)) st' rels'
                    | Raise e => (fst (fst st), Some e)
                    end
    end.

  (** the relations of one run (the text between ampersands), or None when it is skipped *)
  Definition run_bits (run : pystr) : res (option (pystr * N * list (pystr * pystr))) :=
    let (t, r) := op_split run in
    do u <- coll_unescape (strip t);
    match base_match u with
    | None => Ok None
    | Some (base, before) => Ok (Some (base, before, map (fun p => (strip (fst p), strip (snd p))) r))
    end.
  Definition parse_run (n : nat) (c : coll) (run : pystr) : coll * option exn :=
    match run_bits run with
    | Raise e => (c, Some e)
    | Ok None => (c, None)
    | Ok (Some (base, before, rels)) => parse_rels n 1 (c, base, before) rels
    end.
  Fixpoint parse_runs (n : nat) (c : coll) (runs : list pystr) : coll * option exn :=
    match runs with
    | [] => (c, None)
    | r :: rs => match parse_run n c r with
                 | (c', None) => parse_runs (S n) c' rs
                 | (c', Some e) => (c', Some e)
                 end
    end.
  (** collation.py:206-244 [Collation.parse] *)
  Definition coll_parse (c : coll) (s : pystr) : coll * option exn :=
    parse_runs 0 c (split_on 38 (drop_comment_lines s)).
End Parse.

(** * DUCET file, collation.py:114-141 *)
(** [keyre.findall]: runs of four hex digits, left to right; [skip] counts characters of the
    current match still to be passed *)
Fixpoint find4 (skip : nat) (s : pystr) : list pystr :=
  match s with
  | [] => []
  | _ :: s' =>
      match skip with
      | S k => find4 k s'
      | O => match take_hex 4 s with
             | Some h => h :: find4 3 s'
             | None => find4 0 s'
             end
      end
  end.
Definition ducet_key (field : pystr) : pystr := map hexnum (find4 0 field).

(** [valre] at the start of [s]: an 18 character bracket with three weights *)
Definition val_at (s : pystr) : option (N * N * N) :=
  match s with
  | 91 :: m :: r =>
      if (N.eqb m 46 || N.eqb m 42)%bool then
        match take_hex 4 r with
        | Some a =>
            match skipn 4 r with
            | 46 :: r2 =>
                match take_hex 4 r2 with
                | Some b =>
                    match skipn 4 r2 with
                    | 46 :: r3 =>
                        match take_hex 4 r3 with
                        | Some c => match skipn 4 r3 with
                                    | 93 :: _ => Some (hexnum a, hexnum b, hexnum c)
                                    | _ => None
                                    end
                        | None => None
                        end
                    | _ => None
                    end
                | None => None
                end
            | _ => None
            end
        | None => None
        end
      else None
  | _ => None
  end.
Fixpoint find_vals (skip : nat) (s : pystr) : list (N * N * N) :=
  match s with
  | [] => []
  | _ :: s' =>
      match skip with
      | S k => find_vals k s'
      | O => match val_at s with
             | Some v => v :: find_vals 16 s'
             | None => find_vals 0 s'
             end
      end
  end.

(** collation.py:129-135: one line. [ws] is [str.strip] white space. *)
Definition ducet_line (ws : N -> bool) (tab : list (pystr * list (N * N * N))) (line : pystr) :=
  match split_on 59 line with
  | [k; v] =>
      match strip ws k with
      | 64 :: _ => tab
      | _ => dset streq tab (ducet_key k) (find_vals 0 v)
      end
  | _ => tab
  end.
Definition read_ducet (ws : N -> bool) (lines : list pystr) := fold_left (ducet_line ws) lines [].

(** * ducet.py *)
(** ducet.py:114-119 [_generateSortKey] *)
Definition gen_key (raw : list (N * N * N)) : list (list N) :=
  match zip3 raw with
  | None => []
  | Some (a, b, c) => [a ++ [0]; b ++ [0]; c ++ [0]]
  end.
Inductive dcmp := DVal (z : Z) | DUnknown.

(** ducet.py:58-68 (and 73-83): the first difference. The tests [sortKey1[i] == 0] compare a
    tuple with 0 and are false, so the levels stay 1. *)
Fixpoint first_diff (a b : list (list N)) : option Z :=
  match a, b with
  | x :: a', y :: b' =>
      match lcmp N.compare x y with
      | Lt => Some 1%Z
      | Gt => Some (-1)%Z
      | Eq => first_diff a' b'
      end
  | _, _ => None
  end.
Definition cmp_len (a b : list (list N)) : Z :=
  ((if Nat.ltb (length b) (length a) then 1 else 0) - (if Nat.ltb (length a) (length b) then 1 else 0))%Z.

Section Ducet.
  Variable lower : N -> pystr.
  Variables isupper islower : N -> bool.
  Variable tab : list (pystr * list (N * N * N)).

  Definition swapcase (x y : N) : bool :=
    (streq (lower x) (lower y) && ((isupper x && islower y) || (islower x && isupper y)))%bool.
  (** ducet.py:47-52: the first pair of characters that differ in case *)
  Fixpoint case_pair (a b : pystr) : option (N * N) :=
    match a, b with
    | x :: a', y :: b' => if swapcase x y then Some (x, y) else case_pair a' b'
    | _, _ => None
    end.
  Definition dkey (s : pystr) : option (list (list N)) :=
    match dget streq tab s with Some r => Some (gen_key r) | None => None end.
  Definition finish (a b : list (list N)) (extra : option (list (list N) * list (list N))) : dcmp :=
    match first_diff a b with
    | Some z => DVal z
    | None =>
        match extra with
        | Some (a', b') => match first_diff a' b' with
                           | Some z => DVal z
                           | None => DVal (cmp_len a b * 4)
                           end
        | None => DVal (cmp_len a b * 4)
        end
    end.
  (** ducet.py:38-86 [ducetCompare] *)
  Definition ducetCompare (s1 s2 : pystr) : res dcmp :=
    match dkey s1, dkey s2 with
    | Some a, Some b => Ok (finish a b None)
    | _, _ =>
        match s1 with
        | [] => Raise IndexError
        | x :: _ =>
            match dkey [x] with
            | None => Ok DUnknown
            | Some a =>
                match s2 with
                | [] => Raise IndexError
                | y :: _ =>
                    match dkey [y] with
                    | None => Ok DUnknown
                    | Some b =>
                        match case_pair s1 s2 with
                        | None => Ok (finish a b None)
                        | Some (u, v) =>
                            match dkey [u], dkey [v] with
                            | Some a', Some b' => Ok (finish a b (Some (a', b')))
                            | _, _ => Ok DUnknown
                            end
                        end
                    end
                end
            end
        end
    end.
End Ducet.

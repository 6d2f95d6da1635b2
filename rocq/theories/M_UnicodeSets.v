(** Model of lib/sldr/UnicodeSets.py. *)
From Verif Require Import Py.
Open Scope N_scope.

(** UnicodeSets.py:119-120 [escapechar]: the characters that get a backslash.
    Only called with one-character strings, for which [s in '...'] is membership. *)
Definition us_syntax : pystr := lit "[]{}\&-|^$:".
Definition escapechar (c : N) : pystr :=
  if inchars c us_syntax then [92; c] else [c].

(** UnicodeSets.py:105-110 [_escape_using_hex]. *)
Definition escape_using_hex (c : N) : pystr :=
  if N.ltb 65535 c then lit "\U" ++ hexpad 8 c else lit "\u" ++ hexpad 4 c.

(** UnicodeSets.py:81-93 [_hex_escape]. [need c iso] is [ucd.need_hex_escape(c, iso)]. *)
Fixpoint hex_escape (need : N -> bool -> bool) (iso : bool) (s : pystr) : pystr :=
  match s with
  | [] => []
  | c :: s' =>
      if need c iso then escape_using_hex c ++ hex_escape need false s'
      else c :: hex_escape need (N.eqb c 32) s'
  end.

(** UnicodeSets.py:96-102 [_escape_us_syntax]. *)
Definition escape_us_syntax (s : pystr) : pystr := flat_map escapechar s.

(** UnicodeSets.py:69-78 [_need_braces], [_add_needed_braces], and the loop body 60-65. *)
Definition us_item (need : N -> bool -> bool) (s : pystr) : pystr :=
  let t := hex_escape need true (escape_us_syntax s) in
  if Nat.ltb 1 (length s) then 123 :: t ++ [125] else t.

(** UnicodeSets.py:53-66 [list2us]. *)
Definition list2us (need : N -> bool -> bool) (l : list pystr) : pystr :=
  91 :: join [32] (map (us_item need) l) ++ [93].

(** UnicodeSets.py:30-39 [simpleescs]. *)
Definition simpleesc (c : N) : N :=
  match c with
  | 97 => 7 | 98 => 8 | 116 => 9 | 110 => 10 | 118 => 11 | 102 => 12 | 114 => 13
  | _ => c   (* backslash maps to itself; others via .get(x, x) *)
  end.

(** First [n] characters if they are all hex digits: the regex item [[0-9a-fA-F]{n}]. *)
Fixpoint take_hex (n : nat) (s : pystr) : option pystr :=
  match n with
  | O => Some []
  | S n' => match s with
            | c :: s' => if is_hex c then
                           match take_hex n' s' with Some h => Some (c :: h) | None => None end
                         else None
            | [] => None
            end
  end.

(** The longest run of hex digits: the regex item [[0-9a-fA-F]+] before a non hex character. *)
Fixpoint hex_run (s : pystr) : pystr :=
  match s with
  | c :: s' => if is_hex c then c :: hex_run s' else []
  | [] => []
  end.

(** A braced run of at least one hex digit, then the closing brace, at the start of [s]. *)
Definition braced_hex (s : pystr) : option pystr :=
  let h := hex_run s in
  match h with
  | [] => None
  | _ => match skipn (length h) s with
         | 125 :: _ => Some h
         | _ => None
         end
  end.

(** UnicodeSets.py:28 [hexescre] anchored at the start of [s]: number of characters
    matched and the code point. Note that the first alternative is [\ux{...}]. *)
Definition hexesc_at (s : pystr) : option (nat * N) :=
  match s with
  | 92 :: 117 :: 120 :: 123 :: r =>
      match braced_hex r with
      | Some h => Some (5 + length h, hexnum h)%nat
      | None => None
      end
  | 92 :: 117 :: r =>
      match take_hex 4 r with Some h => Some (6%nat, hexnum h) | None => None end
  | 92 :: 85 :: r =>
      match take_hex 8 r with Some h => Some (10%nat, hexnum h) | None => None end
  | 92 :: 120 :: r =>
      match take_hex 2 r with Some h => Some (4%nat, hexnum h) | None => None end
  | _ => None
  end.

(** [chr(n)]: raises outside the code space (Python distinguishes ValueError and
    OverflowError for huge numbers; both are [ValueError] here). *)
Definition pychr (n : N) : res N := if N.ltb n 1114112 then Ok n else Raise ValueError.

(** [re.sub] with a pattern given by its anchored match: scan left to right, replace each
    match and skip its characters. [skip] counts characters still to be dropped. *)
Fixpoint resub (at_ : pystr -> option (nat * res pystr)) (skip : nat) (s : pystr) : res pystr :=
  match s with
  | [] => Ok []
  | c :: s' =>
      match skip with
      | S k => resub at_ k s'
      | O => match at_ s with
             | Some (n, r) => do a <- r; do b <- resub at_ (n - 1) s'; Ok (a ++ b)
             | None => do b <- resub at_ 0 s'; Ok (c :: b)
             end
      end
  end.

(** UnicodeSets.py:202 the [hexescre.sub] of [parse] (also 192). *)
Definition hexescre_sub : pystr -> res pystr :=
  resub (fun s => match hexesc_at s with
                  | Some (n, v) => Some (n, do c <- pychr v; Ok (escapechar c))
                  | None => None end) 0.

(** UnicodeSets.py:29,204 [hexgre] at the start of [s] and its substitution. The group
    holds hex digits only, so [m.group(1).split()] is the group itself. *)
Definition hexgre_at (s : pystr) : option (nat * N) :=
  match s with
  | 92 :: 117 :: 123 :: r =>
      match braced_hex r with
      | Some h => Some (4 + length h, hexnum h)%nat
      | None => None
      end
  | _ => None
  end.
Definition hexgre_sub : pystr -> res pystr :=
  resub (fun s => match hexgre_at s with
                  | Some (n, v) => Some (n, do c <- pychr v; Ok (123 :: escapechar c ++ [125]))
                  | None => None end) 0.

(** UnicodeSets.py:40,193,302 [simpleescsre.sub]: a backslash followed by a non digit. *)
Fixpoint simpleescs_sub (s : pystr) : pystr :=
  match s with
  | [] => []
  | 92 :: ((c :: s'') as s') =>
      if is_digit c then 92 :: simpleescs_sub s' else simpleesc c :: simpleescs_sub s''
  | c :: s' => c :: simpleescs_sub s'
  end.

(** UnicodeSets.py:136-161 [UnicodeSet]. [us_plain] records that the value is a plain
    Python [set], which is what [&], [|], [-] and [.union] return in Python 3; such a value
    has no [negative]/[isclass] attribute. [startgroup]/[endgroup] are left out: they are
    only set when [usegroups] is true and no caller passes it. *)
Record uset := USet { us_items : list pystr; us_neg : bool; us_class : bool; us_plain : bool }.

Definition smem (x : pystr) (l : list pystr) : bool := existsb (streq x) l.
Definition sadd (l : list pystr) (x : pystr) : list pystr := if smem x l then l else l ++ [x].
Definition sunion (a b : list pystr) : list pystr := fold_left sadd b a.
Definition sinter (a b : list pystr) : list pystr := filter (fun x => smem x b) a.
Definition sdiff (a b : list pystr) : list pystr := filter (fun x => negb (smem x b)) a.

Definition us_single (x : pystr) : uset := USet [x] false false false.
Definition us_plainset (l : list pystr) : uset := USet l false false true.

(** truth value of an optional set: [None] and empty sets are false *)
Definition truthy (o : option uset) : bool :=
  match o with Some u => match us_items u with [] => false | _ => true end | None => false end.

(** [s.index(c, i)] *)
Fixpoint index_from (c : N) (s : pystr) (i : nat) : res nat :=
  match s with
  | [] => Raise ValueError
  | x :: s' =>
      match i with
      | O => if N.eqb x c then Ok O else do k <- index_from c s' O; Ok (S k)
      | S i' => do k <- index_from c s' i'; Ok (S k)
      end
  end.

(** [s[e-2]] with Python's wrap-around for a negative index *)
Definition char_before2 (s : pystr) (e : nat) : option N :=
  match e with
  | O => None
  | 1%nat => nth_error s (length s - 1)
  | S (S k) => nth_error s k
  end.
Definition opt_is (o : option N) (c : N) : bool :=
  match o with Some x => N.eqb x c | None => false end.

(** UnicodeSets.py:235-237: the closing bracket of a class. *)
Fixpoint close_class (fuel : nat) (s : pystr) (e : nat) : res nat :=
  if (negb (Nat.eqb e 0) && opt_is (nth_error s (e - 1)) 92 && negb (opt_is (char_before2 s e) 92))%bool
  then match fuel with
       | O => Raise OutOfFuel
       | S f => do e' <- index_from 93 s (e + 1); close_class f s e'
       end
  else Ok e.

(** UnicodeSets.py:299-301: the closing brace of a string. *)
Fixpoint close_brace (fuel : nat) (s : pystr) (e : nat) : res nat :=
  if (negb (Nat.eqb e 0) && opt_is (nth_error s (e - 1)) 92)%bool
  then match fuel with
       | O => Raise OutOfFuel
       | S f => do e' <- index_from 125 s (e + 1); close_brace f s e'
       end
  else Ok e.

(** s[a:b] *)
Definition slice (s : pystr) (a b : nat) : pystr := firstn (b - a) (skipn a s).

(** the characters with code points lo..hi *)
Definition char_range (lo hi : N) : list pystr :=
  map (fun k => [lo + N.of_nat k]) (seq 0 (N.to_nat (hi + 1 - lo))).

(** [ord(x)] of a string *)
Definition pyord (x : pystr) : res N := match x with [c] => Ok c | _ => Raise TypeError end.

(** UnicodeSets.py:246-297: a binary operator [op] between [last] and [item]
    ([last] is not None). Returns the new value of (lastitem, res).
    Reading [.negative]/[.isclass] of a plain set raises AttributeError. *)
Definition us_binop (op : N) (last : uset) (item : option uset) : res (option uset * uset) :=
  match item with
  | Some it =>
      if (truthy (Some last) && truthy item)%bool then
        if N.eqb op 124 then
          if us_plain last then Raise AttributeError
          else if us_neg last then
                 if us_neg it then Ok (None, us_plainset (sinter (us_items last) (us_items it)))
                 else Ok (None, us_plainset (sdiff (us_items last) (us_items it)))
          else if us_neg it then Raise AttributeError  (* res.negate on a plain set *)
          else Ok (None, us_plainset (sunion (us_items it) (us_items last)))
        else if N.eqb op 38 then
          if us_plain last then Raise AttributeError
          else if us_neg last then
                 if us_neg it then Ok (None, us_plainset (sunion (us_items it) (us_items last)))
                 else Ok (None, us_plainset (sdiff (us_items it) (us_items last)))
          else if us_neg it then Ok (None, us_plainset (sdiff (us_items last) (us_items it)))
          else Ok (None, us_plainset (sinter (us_items it) (us_items last)))
        else
          if us_plain last then Raise AttributeError
          else if (us_class last && us_class it)%bool then
                 if us_neg last then
                   if us_neg it then Ok (None, us_plainset (sdiff (us_items it) (us_items last)))
                   else Ok (None, us_plainset (sunion (us_items last) (us_items it)))
                 else if us_neg it then Ok (None, us_plainset (sinter (us_items last) (us_items it)))
                 else Ok (None, us_plainset (sdiff (us_items last) (us_items it)))
          else match us_items last, us_items it with
               | [a], [b] =>
                   do lo <- pyord a; do hi <- pyord b;
                   Ok (None, USet (char_range lo hi) false false false)
               | _, _ => Ok (Some last, us_single [45])
               end
      else Ok (Some last, us_single [op])
  | None => Ok (Some last, us_single [op])
  end.

Section Parse.
  (** whether [int(c)] succeeds for a one-character string beyond the ASCII digits *)
  Variable uni_digit : N -> bool.
  Definition intable (c : N) : bool := (is_digit c || (N.leb 128 c && uni_digit c))%bool.

  (** UnicodeSets.py:238-242: the loop over the items of a class. [item] is the pending
      item, [acc] the set collected so far. *)
  Fixpoint class_loop (item1 : nat -> option uset -> nat -> res (nat * option uset * option uset))
           (fuel : nat) (ind e : nat) (item : option uset) (acc : list pystr)
    : res (nat * option uset * list pystr) :=
    if Nat.ltb ind e then
      match fuel with
      | O => Raise OutOfFuel
      | S f =>
          do (p, nextitem) <- item1 ind item e;
          let (ind', it) := p in
          let acc' := match it with Some u => sunion acc (us_items u) | None => acc end in
          class_loop item1 f ind' e nextitem acc'
      end
    else Ok (ind, item, acc).

  (** UnicodeSets.py:223-321 [parseitem] (usegroups=False). [fuel] bounds the nesting. *)
  Fixpoint parseitem (fuel : nat) (s : pystr) (ind : nat) (lastitem : option uset) (end_ : nat)
    : res (nat * option uset * option uset) :=
    if Nat.eqb ind end_ then Ok (end_, lastitem, None)
    else
      match nth_error s ind with
      | None => Raise IndexError
      | Some c =>
          match fuel with
          | O => Raise OutOfFuel
          | S f =>
              if N.eqb c 91 then
                match nth_error s (ind + 1) with
                | None => Raise IndexError
                | Some c1 =>
                    let neg := N.eqb c1 94 in
                    let ind1 := if neg then (ind + 2)%nat else (ind + 1)%nat in
                    do e0 <- index_from 93 s ind1;
                    do e <- close_class (length s) s e0;
                    do (p, acc) <- class_loop (parseitem f s) (length s) ind1 e None [];
                    let (ind2, item) := p in
                    let acc' := match item with Some u => sunion acc (us_items u) | None => acc end in
                    Ok (ind2 + 1, lastitem, Some (USet acc' neg true false))%nat
                end
              else if inchars c (lit "|&-") then
                match lastitem with
                | None => Ok (ind + 1, None, Some (us_single [c]))%nat
                | Some last =>
                    do (p, item) <- parseitem f s (ind + 1)%nat None end_;
                    let (ind', _) := p in
                    do (last', r) <- us_binop c last item;
                    Ok (ind', last', Some r)
                end
              else if N.eqb c 123 then
                do e0 <- index_from 125 s (ind + 1)%nat;
                do e <- close_brace (length s) s e0;
                Ok (e + 1, lastitem, Some (us_single (simpleescs_sub (slice s (ind + 1) e))))%nat
              else if N.eqb c 92 then
                match nth_error s (ind + 1) with
                | None => Raise IndexError
                | Some x =>
                    let v := if intable x then [92; x] else [simpleesc x] in
                    Ok (ind + 2, lastitem, Some (us_single v))%nat
                end
              else Ok (ind + 1, lastitem, Some (us_single [c]))%nat
          end
      end.

  (** UnicodeSets.py:206-217: the loop of [parse] over the sequence. *)
  Fixpoint parse_loop (fuel : nat) (s : pystr) (i : nat) (acc : list uset) : res (list uset) :=
    if Nat.ltb i (length s) then
      match fuel with
      | O => Raise OutOfFuel
      | S f =>
          do (p, nextitem) <- parseitem (length s) s i None (length s);
          let (i', _) := p in
          match nextitem with
          | None => Raise AttributeError   (* None.startgroup; not reachable, i < len(s) *)
          | Some u => parse_loop f s i' (if truthy (Some u) then acc ++ [u] else acc)
          end
      end
    else Ok acc.

  (** UnicodeSets.py:199-220 [parse] with normal=None. *)
  Definition us_parse (s0 : pystr) : res (list uset) :=
    do s1 <- hexescre_sub s0;
    do s2 <- hexgre_sub s1;
    let s := filter (fun c => negb (N.eqb c 32)) s2 in
    parse_loop (length s) s 0 [].

  (** UnicodeSets.py:44-50 [us2list]: the members of the first set, or nothing. *)
  Definition us2list (s : pystr) : res (list pystr) :=
    do l <- us_parse s;
    match l with
    | u :: _ => Ok (us_items u)
    | [] => Ok []
    end.
End Parse.

(** UnicodeSets.py:191-196 [struni] with groups=None. *)
Definition struni (s : pystr) : res pystr :=
  do s1 <- hexescre_sub s; Ok (simpleescs_sub s1).

(** UnicodeSets.py:172-188 [flatten], the odometer over the sorted value lists (from
    [vals] on; [_expand] for values that do not start with a backslash). One step of the
    [for] loop at 179-186: increments the first index that is not at its maximum and
    resets the ones before it; None is the [return]. *)
Fixpoint odo_step (lens idx : list nat) : option (list nat) :=
  match lens, idx with
  | n :: lens', i :: idx' =>
      if Nat.eqb i (n - 1) then
        match odo_step lens' idx' with
        | Some r => Some (O :: r)
        | None => None
        end
      else Some (S i :: idx')
  | _, _ => None
  end.

(** the [while True] loop: the index vectors at which it yields, for at most [fuel] rounds *)
Fixpoint odo_loop (fuel : nat) (lens idx : list nat) : res (list (list nat)) :=
  match fuel with
  | O => Raise OutOfFuel
  | S f =>
      match odo_step lens idx with
      | None => Ok []
      | Some idx' => do r <- odo_loop f lens idx'; Ok (idx' :: r)
      end
  end.

(** UnicodeSets.py:164-169 [_expand]: a member that starts with a backslash makes it look up
    [p.group], an attribute that no sequence has. *)
Definition expand1 (v : pystr) : res pystr :=
  match v with 92 :: _ => Raise AttributeError | _ => Ok v end.
(** UnicodeSets.py:188 ["".join(_expand(p, vals, i, x) for i, x in enumerate(indices))] *)
Fixpoint pick (vals : list (list pystr)) (idx : list nat) : res pystr :=
  match vals, idx with
  | v :: vals', i :: idx' =>
      match nth_error v i with
      | None => Raise IndexError
      | Some x => do a <- expand1 x; do b <- pick vals' idx'; Ok (a ++ b)
      end
  | _, _ => Ok []
  end.
Fixpoint mapM {A B} (f : A -> res B) (l : list A) : res (list B) :=
  match l with
  | [] => Ok []
  | x :: l' => do y <- f x; do r <- mapM f l'; Ok (y :: r)
  end.
(** UnicodeSets.py:172-188 [list(flatten(s))], normal=None; [fuel] bounds the rounds of the
    [while True] loop. An exception anywhere is the result. *)
Definition us_flatten (ud : N -> bool) (fuel : nat) (s : pystr) : res (list pystr) :=
  do p <- us_parse ud s;
  let vals := map (fun u => isort strleb (us_items u)) p in
  do ix <- odo_loop fuel (map (@length pystr) vals) (map (fun _ => O) vals);
  mapM (pick vals) ix.

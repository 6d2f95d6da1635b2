(** Model of lib/sldr/ldml_keyboard.py: the key maps, the transform tables and the layers a
    keystroke is processed through. *)
From Verif Require Import Py M_UnicodeSets M_Flatten.
Local Open Scope list_scope.
Local Open Scope nat_scope.

(** ** Transform tables *)

(** ldml_keyboard.py 368-377 (class Rule): a node of the trie is a dict from strings to
    nodes, with the attributes [rule], [default] and [contexts]; the attributes set by
    385-395 (_coremerge) with setattr are kept in [r_attrs]. An attribute named like one of
    the fields would overwrite the field; that is not modelled. *)
Inductive rule := Rule {
  r_rule : bool;
  r_kids : list (pystr * rule);
  r_default : option rule;
  r_contexts : list ((pystr * pystr) * rule);
  r_attrs : list (pystr * pystr) }.

(** ldml_keyboard.py 372-376 *)
Definition new_rule : rule := Rule false [] None [] [].

(** [getattr(r, name, dflt)] *)
Definition attr_or (r : rule) (name dflt : pystr) : pystr :=
  match dget streq (r_attrs r) name with Some v => v | None => dflt end.
(** [getattr(r, 'error', 0)] as a condition *)
Definition is_error (r : rule) : bool :=
  match attr_or r (lit "error") [] with [] => false | _ => true end.

(** ldml_keyboard.py 402-404 (_matchcontext) *)
Definition match_context (m : pystr * pystr) (s : pystr) (beg end_ : nat) : bool :=
  ((match fst m with
    | [] => true
    | _ => Nat.leb (length (fst m)) beg && streq (slice s (beg - length (fst m)) beg) (fst m)
    end) &&
   (match snd m with
    | [] => true
    | _ => Nat.leb (length (snd m)) (length s - end_) &&
           streq (slice s end_ (end_ + length (snd m))) (snd m)
    end))%bool.

(** ldml_keyboard.py 406-412 (context_match) *)
Definition context_match (r : rule) (s : pystr) (beg end_ : nat) : option rule :=
  match r_contexts r with
  | [] => Some r
  | cs => match List.find (fun mr => match_context (fst mr) s beg end_) cs with
          | Some (_, r') => Some r'
          | None => None
          end
  end.

(** ldml_keyboard.py 350-365: the loop of Rules.match. Every caller passes ind = 0, so start
    is 0. A [Rule] without entries is false, so an empty default does not count (352). *)
Fixpoint match_loop (partial : bool) (s : pystr) (curr : rule) (rest : pystr) (ind : nat)
         (last : option rule) (lastind : nat) : res (option rule * nat) :=
  match rest with
  | [] => if (partial && negb (Nat.eqb (length (r_kids curr)) 0))%bool then Ok (None, ind)
          else Ok (last, lastind)
  | c :: rest' =>
      let curr1 :=
        if dmem streq (r_kids curr) [c] then Some curr
        else match r_default curr with
             | Some d => match r_kids d with [] => None | _ => Some d end
             | None => None
             end in
      match curr1 with
      | None => Ok (last, lastind)
      | Some cu =>
          match dget streq (r_kids cu) [c] with
          | None => Raise KeyError
          | Some nx =>
              let keep := match_loop partial s nx rest' (S ind) last lastind in
              if r_rule nx then
                match context_match nx s 0 (S ind) with
                | Some newlast => match_loop partial s nx rest' (S ind) (Some newlast) (S ind)
                | None => keep
                end
              else keep
          end
      end
  end.

(** ldml_keyboard.py 338-365 (Rules.match) *)
Definition rules_match (t : rule) (s : pystr) (partial fail : bool) : res (option rule * nat) :=
  if fail then
    match s with
    | [] => Raise IndexError
    | c :: _ => match_loop partial s t s 0 None (if dmem streq (r_kids t) [c] then 1 else 0)
    end
  else match_loop partial s t s 0 None 0.

(** ldml_keyboard.py 300-305 (class Rules): the trie and whether it works backwards *)
Record rules := mkRules { rs_trie : rule; rs_reverse : bool }.

(** [d[l]], adding an empty node when it is missing (322-323) *)
Definition with_kids (j : rule) (ks : list (pystr * rule)) : rule :=
  Rule (r_rule j) ks (r_default j) (r_contexts j) (r_attrs j).
Definition add_keys (j : rule) (ls : list pystr) : rule :=
  with_kids j (fold_left (fun ks l => if dmem streq ks l then ks else dset streq ks l new_rule)
                         ls (r_kids j)).

(** ldml_keyboard.py 318-331: the nodes reached from [j] by one set [k] of the pattern.
    Reading [k.negative] of a plain Python set raises AttributeError; [k] is not empty. *)
Definition step_jobs (k : uset) (j : rule) : res (list rule) :=
  if us_plain k then Raise AttributeError
  else
    let j' := add_keys j (us_items k) in
    if us_neg k then
      Ok (map snd (filter (fun kr => negb (smem (fst kr) (us_items k))) (r_kids j')) ++
          [match r_default j' with Some d => d | None => new_rule end])
    else Ok (map snd (filter (fun kr => smem (fst kr) (us_items k)) (r_kids j'))).

(** ldml_keyboard.py 333-334 [for j, string in newjobs: j.merge(...)]: the loop unpacks each
    node, a dict, into two variables. Unless it has exactly two keys that is a ValueError;
    if it has, [j] is a str without a [merge]. The first node is that of the list here; it is
    any of them in Python, where newjobs is a set. *)
Definition unpack_jobs (newjobs : list rule) : res unit :=
  match newjobs with
  | [] => Ok tt
  | j :: _ => if Nat.eqb (length (r_kids j)) 2 then Raise AttributeError else Raise ValueError
  end.

(** ldml_keyboard.py 313-336: the loop over the sets of the pattern and, inside, over the
    jobs. When it completes no node was given a rule: what changes in the trie is that it
    may have gained keys, and only a loop that completes without reaching a final set leaves
    the table behind. The keys gained by the non final sets are not kept here: the loop
    always ends with the final set, which raises. *)
Fixpoint append_jobs (chars : list uset) (jobs : list rule) : res unit :=
  match chars with
  | [] => Ok tt
  | k :: chars' =>
      do newjobs <-
        fold_left (fun acc j => do a <- acc;
                                do n <- step_jobs k j;
                                do _ <- (match chars' with [] => unpack_jobs (a ++ n) | _ => Ok tt end);
                                Ok (a ++ n)) jobs (Ok []);
      append_jobs chars' newjobs
  end.

(** ldml_keyboard.py 307-336 (Rules.append); [from] is the attribute, if present. Parsing
    None raises TypeError, and so does UnicodeSets.py 129-133 (reverse), because
    UnicodeSetSequence passes its argument on to object.__init__. *)
Definition rules_append (ud : N -> bool) (rs : rules) (from : option pystr) : res rules :=
  match from with
  | None => Raise TypeError
  | Some f =>
      do chars <- us_parse ud f;
      if rs_reverse rs then Raise TypeError
      else do _ <- append_jobs chars [rs_trie rs]; Ok rs
  end.

(** ** Keyboards *)

(** ldml_keyboard.py 62-83: the elements of a keyboard file. A key map has its modifiers
    attribute and, for each child, the attributes iso and to; a table of transforms has its
    type and, for each child, the attribute from (the other attributes are only read by
    Rule.merge, which is never reached); an import has the elements of the imported file. *)
Inductive kelem :=
| KeyMap (modifiers : option pystr) (keys : list (option pystr * option pystr))
| Transforms (type : option pystr) (froms : list (option pystr))
| Reorders (froms : list (option pystr))
| Backspaces (froms : list (option pystr))
| Settings (attrs : list (pystr * pystr))
| Import (elems : list kelem)
| OtherElem.

Definition optstr_eqb (a b : option pystr) : bool :=
  match a, b with
  | Some x, Some y => streq x y
  | None, None => true
  | _, _ => false
  end.

Notation keymap := (list (option pystr * option pystr)).

(** ldml_keyboard.py 44-50: the fields set while parsing *)
Record keyboard := mkKeyboard {
  k_maps : list keymap;
  k_mods : list (pystr * nat);
  k_trans : list (option pystr * rules);
  k_settings : list (pystr * pystr) }.
Definition empty_keyboard : keyboard := mkKeyboard [] [] [] [].

Section Load.
  Variable ud : N -> bool.                 (* digits beyond ASCII, as for UnicodeSets.parse *)
  Variable ws : N -> bool.                 (* white space *)
  Variable lower : pystr -> pystr.         (* str.lower *)

  (** ldml_keyboard.py 101-107: the required and the optional modifiers *)
  Definition optional_mod (m : pystr) : bool :=
    match rev m with 63%N :: _ => true | _ => false end.
  Definition all_mods (s : pystr) : list pystr :=
    flat_map (fun m => split_on 43 (lower m)) (words ws (lower s)).

  (** ldml_keyboard.py 98-111 (parse_modifiers), consumed to the end: [resn + c] adds a tuple
      to a list, so any optional modifier raises after the first result *)
  Definition parse_modifiers (s : pystr) : res (list pystr) :=
    if existsb optional_mod (all_mods s) then Raise TypeError
    else Ok (isort strleb (all_mods s)).

  (** ldml_keyboard.py 52-57 (_addrules) *)
  Definition add_rules (kb : keyboard) (type : option pystr) (froms : list (option pystr))
    : res keyboard :=
    let rs0 := match dget optstr_eqb (k_trans kb) type with
               | Some rs => rs
               | None => mkRules new_rule (optstr_eqb type (Some (lit "backspace")))
               end in
    do rs <- fold_left (fun acc f => do rs <- acc; rules_append ud rs f) froms (Ok rs0);
    Ok (mkKeyboard (k_maps kb) (k_mods kb) (dset optstr_eqb (k_trans kb) type rs)
                   (k_settings kb)).

  (** ldml_keyboard.py 59-83 (parse): one element of the file *)
  Fixpoint load_elem (e : kelem) (kb : keyboard) : res keyboard :=
    match e with
    | KeyMap mods keys =>
        let kind := length (k_maps kb) in
        do m <- (match mods with
                 | Some s => do l <- parse_modifiers s; Ok (join [32%N] l)
                 | None => Ok []
                 end);
        Ok (mkKeyboard
              (k_maps kb ++ [fold_left (fun d (kv : option pystr * option pystr) =>
                                          dset optstr_eqb d (fst kv) (snd kv)) keys []])
              (dset streq (k_mods kb) m kind) (k_trans kb) (k_settings kb))
    | Transforms ty fs => add_rules kb ty fs
    | Reorders fs => add_rules kb (Some (lit "reorder")) fs
    | Backspaces fs => add_rules kb (Some (lit "backspace")) fs
    | Settings at_ =>
        Ok (mkKeyboard (k_maps kb) (k_mods kb) (k_trans kb)
              (fold_left (fun d (kv : pystr * pystr) => dset streq d (fst kv) (snd kv))
                         at_ (k_settings kb)))
    | Import es => fold_left (fun acc e => do kb <- acc; load_elem e kb) es (Ok kb)
    | OtherElem => Ok kb
    end.
  (** ldml_keyboard.py 43-50, 59-83: a keyboard read from the elements of its file. The
      files themselves are not modelled: an import is the list of elements it leads to, so
      files that import each other are left out. *)
  Definition load (es : list kelem) : res keyboard :=
    fold_left (fun acc e => do kb <- acc; load_elem e kb) es (Ok empty_keyboard).
End Load.

(** ** The layers *)

(** ldml_keyboard.py 417-423: the slots of a context *)
Inductive slot := SBase | SSimple | SReorder | SFinal.
(** the entries of a slot in stables, outputs and offsets *)
Record layer := mkLayer { l_stable : pystr; l_out : pystr; l_off : nat }.
Record context := mkContext {
  c_base : layer; c_simple : layer; c_reorder : layer; c_final : layer; c_error : bool }.

Definition lget (c : context) (i : slot) : layer :=
  match i with
  | SBase => c_base c | SSimple => c_simple c | SReorder => c_reorder c | SFinal => c_final c
  end.
Definition lset (c : context) (i : slot) (l : layer) : context :=
  match i with
  | SBase => mkContext l (c_simple c) (c_reorder c) (c_final c) (c_error c)
  | SSimple => mkContext (c_base c) l (c_reorder c) (c_final c) (c_error c)
  | SReorder => mkContext (c_base c) (c_simple c) l (c_final c) (c_error c)
  | SFinal => mkContext (c_base c) (c_simple c) (c_reorder c) l (c_error c)
  end.

(** ldml_keyboard.py 424-433 (Context) *)
Definition empty_layer : layer := mkLayer [] [] 0.
Definition new_context (chars : pystr) : context :=
  mkContext (mkLayer chars chars (length chars)) empty_layer empty_layer empty_layer false.
(** ldml_keyboard.py 435-444 (clone) *)
Definition clone (c : context) (chars : pystr) : context :=
  let b := c_base c in
  mkContext (mkLayer (l_stable b ++ chars) (l_out b ++ chars) (l_off b + length chars))
            (c_simple c) (c_reorder c) (c_final c) false.
(** ldml_keyboard.py 446-449 (__str__) *)
Definition shown (c : context) : pystr :=
  if c_error c then 42%N :: l_out (c_final c) ++ [42%N] else l_out (c_final c).

(** the layer before; the first is never asked for *)
Definition before (i : slot) : slot :=
  match i with SFinal => SReorder | SReorder => SSimple | _ => SBase end.
(** ldml_keyboard.py 458-460 (input) *)
Definition input (c : context) (i : slot) : pystr := l_out (lget c (before i)).
(** ldml_keyboard.py 466-469 (reset_output) *)
Definition reset_output (c : context) (i : slot) : context :=
  let l := lget c i in lset c i (mkLayer (l_stable l) (l_stable l) (l_off l)).
(** ldml_keyboard.py 471-482 (results), for the slots after the first *)
Definition results (c : context) (i : slot) (n : nat) (res : pystr) : context :=
  let l := lget c i in
  let leftlen := (Z.of_nat (length (input c i)) - Z.of_nat (l_off l) - Z.of_nat n)%Z in
  let prevleft :=
    match i with
    | SReorder | SFinal =>
        (Z.of_nat (length (input c (before i))) - Z.of_nat (l_off (lget c (before i))))%Z
    | _ => 0%Z
    end in
  if Z.ltb prevleft leftlen
  then lset c i (mkLayer (l_stable l ++ res) (l_out l ++ res) (l_off l + n))
  else lset c i (mkLayer (l_stable l) (l_out l ++ res) (l_off l)).

(** ldml_keyboard.py 156-160 (_process_empty) *)
Definition process_empty (c : context) (i : slot) : context :=
  let c1 := reset_output c i in
  let output := skipn (l_off (lget c1 i)) (input c1 i) in
  results c1 i (length output) output.

(** ldml_keyboard.py 179-190: the loop of _process_simple; [rest] is instr[curr:]. The result
    is false when a rule with an error attribute applies. *)
Fixpoint simple_loop (fuel : nat) (t : rule) (partial fail fallback : bool) (i : slot)
         (rest : pystr) (c : context) : res (bool * context) :=
  match rest with
  | [] => Ok (true, c)
  | x :: rest' =>
      match fuel with
      | O => Raise OutOfFuel
      | S f =>
          do (r, n) <- rules_match t rest partial fail;
          match r with
          | Some rl =>
              if is_error rl then Ok (false, c)
              else simple_loop f t partial fail fallback i (skipn n rest)
                     (results c i n (attr_or rl (lit "to") []))
          | None =>
              if (Nat.eqb n 0 && negb fallback)%bool
              then simple_loop f t partial fail fallback i rest' (results c i 1 [x])
              else Ok (true, c)
          end
      end
  end.

(** ldml_keyboard.py 162-191 (_process_simple), for a table that exists *)
Definition process_simple (t : rule) (partial fail fallback : bool) (i : slot) (c : context)
  : res (bool * context) :=
  let c1 := reset_output c i in
  let rest := skipn (l_off (lget c1 i)) (input c1 i) in
  simple_loop (length rest) t partial fail fallback i rest c1.

(** ** Reordering *)

(** ldml_keyboard.py 38-39 (CharCode and SortKey) *)
Record charcode := mkCode { cc_primary : Z; cc_tbase : bool; cc_tertiary : Z; cc_prebase : bool }.
Record sortkey := mkKey { sk_primary : Z; sk_index : nat; sk_tertiary : Z; sk_tie : nat }.

(** comparison of the tuples *)
Definition key_cmp (a b : sortkey) : comparison :=
  match Z.compare (sk_primary a) (sk_primary b) with
  | Eq => match Nat.compare (sk_index a) (sk_index b) with
          | Eq => match Z.compare (sk_tertiary a) (sk_tertiary b) with
                  | Eq => Nat.compare (sk_tie a) (sk_tie b)
                  | r => r
                  end
          | r => r
          end
  | r => r
  end.
Definition key_leb (a b : sortkey) : bool :=
  match key_cmp a b with Gt => false | _ => true end.

Section Reorder.
  Variable ws : N -> bool.
  Variable lower : pystr -> pystr.
  Variable pyint : pystr -> option Z.      (* int(s); None is ValueError *)

  (** ldml_keyboard.py 203-208 (_padlist): an item is a number or a string *)
  Definition pad_item (x : pystr) : Z + pystr :=
    if streq (lower x) (lit "false") then inl 0%Z
    else if streq (lower x) (lit "true") then inl 1%Z
    else inr x.
  Definition padlist (v : pystr) (num : nat) : res (list (Z + pystr)) :=
    let l := map pad_item (words ws v) in
    if Nat.ltb (length l) num then
      match rev l with
      | [] => Raise IndexError
      | x :: _ => Ok (l ++ repeat x (num - length l))
      end
    else Ok l.
  Definition as_int (x : Z + pystr) : res Z :=
    match x with
    | inl n => Ok n
    | inr s => match pyint s with Some n => Ok n | None => Raise ValueError end
    end.
  Definition as_bool (x : Z + pystr) : bool :=
    match x with inl n => negb (Z.eqb n 0) | inr [] => false | inr _ => true end.

  (** ldml_keyboard.py 218: a code per matched character *)
  Fixpoint zip_codes (n : nat) (os : list Z) (bs : list bool) (ts : list Z) (ps : list bool)
    : res (list charcode) :=
    match n with
    | O => Ok []
    | S n' =>
        match os, bs, ts, ps with
        | o :: os', b :: bs', t :: ts', p :: ps' =>
            do l <- zip_codes n' os' bs' ts' ps'; Ok (mkCode o b t p :: l)
        | _, _, _, _ => Raise IndexError
        end
    end.

  (** ldml_keyboard.py 210-220 (_get_charcodes); [rest] is instr[curr:] *)
  Definition get_charcodes (t : rule) (rest : pystr) : res (list charcode) :=
    do (r, n) <- rules_match t rest false false;
    match r with
    | Some rl =>
        do os0 <- padlist (attr_or rl (lit "order") (lit "0")) n; do os <- mapM as_int os0;
        do bs0 <- padlist (attr_or rl (lit "tertiary_base") (lit "false")) n;
        do ts0 <- padlist (attr_or rl (lit "tertiary") (lit "0")) n; do ts <- mapM as_int ts0;
        do ps0 <- padlist (attr_or rl (lit "prebase") (lit "false")) n;
        zip_codes n os (map as_bool bs0) ts (map as_bool ps0)
    | None => Ok [mkCode 0 false 0 false]
    end.

  (** ldml_keyboard.py 193-201 (_sort): [k += SortKey(0, 0, 0, 0)] extends the list of keys
      with four numbers, so without a base a key is compared with a number *)
  Definition sort_run (s : pystr) (k : list sortkey) : res pystr :=
    if existsb (fun x => (Z.eqb (sk_primary x) 0 && Z.eqb (sk_tertiary x) 0)%bool) k
    then Ok (map fst (isort (fun a b => key_leb (snd a) (snd b)) (combine s k)))
    else match s with
         | [] => Ok [9676%N]
         | _ => Raise TypeError
         end.

  (** ldml_keyboard.py 235-239: how many codes pass, and whether one breaks the loop *)
  Fixpoint scan_codes (cs : list charcode) : nat * bool :=
    match cs with
    | [] => (0, false)
    | c :: cs' => if (cc_prebase c || Z.eqb (cc_primary c) 0)%bool then (0, true)
                  else let (n, b) := scan_codes cs' in (S n, b)
    end.
  (** ldml_keyboard.py 233-243: the number of characters before the first run *)
  Fixpoint scan_start (fuel : nat) (t : rule) (rest : pystr) : res nat :=
    match rest with
    | [] => Ok 0
    | _ =>
        match fuel with
        | O => Raise OutOfFuel
        | S f =>
            do codes <- get_charcodes t rest;
            let (n, broke) := scan_codes codes in
            if broke then Ok n
            else do m <- scan_start f t (skipn n rest); Ok (n + m)
        end
    end.

  (** the variables of the main loop: startrun, the keys of the run so far (keys up to the
      first None), isinit, currprimary and currbaseindex *)
  Record rstate := mkR { rr_start : nat; rr_keys : list sortkey; rr_init : bool;
                         rr_prim : Z; rr_base : nat }.

  (** ldml_keyboard.py 254-277: one character, at position [p] = curr + i *)
  Definition reorder_char (instr : pystr) (i : slot) (p : nat) (c : charcode)
             (st : rstate * context) : res (rstate * context) :=
    let (r, ctx) := st in
    let '(key, prim, base) :=
      if (negb (Z.eqb (cc_tertiary c) 0) && Nat.ltb (rr_start r) p)%bool
      then (mkKey (rr_prim r) (rr_base r) (cc_tertiary c) p, rr_prim r, rr_base r)
      else (mkKey (cc_primary c) p 0 p,
            (if (Z.eqb (cc_primary c) 0 || cc_tbase c)%bool then cc_primary c else rr_prim r),
            (if (Z.eqb (cc_primary c) 0 || cc_tbase c)%bool then p else rr_base r)) in
    let zero := (Z.eqb (sk_primary key) 0 && Z.eqb (sk_tertiary key) 0)%bool in
    let prevzero := match rev (rr_keys r) with
                    | k :: _ => Z.eqb (sk_primary k) 0
                    | [] => false
                    end in
    let init := if ((negb zero && negb (cc_prebase c)) ||
                    (cc_prebase c && Nat.ltb (rr_start r) p && prevzero))%bool
                then false else rr_init r in
    if (negb init && (zero || cc_prebase c))%bool then
      do out <- sort_run (slice instr (rr_start r) p) (rr_keys r);
      Ok (mkR p [key] true prim base, results ctx i (p - rr_start r) out)
    else Ok (mkR (rr_start r) (rr_keys r ++ [key]) init prim base, ctx).

  Fixpoint reorder_codes (instr : pystr) (i : slot) (p : nat) (cs : list charcode)
           (st : rstate * context) : res (rstate * context) :=
    match cs with
    | [] => Ok st
    | c :: cs' => do st' <- reorder_char instr i p c st; reorder_codes instr i (S p) cs' st'
    end.

  (** ldml_keyboard.py 250-278: the main loop from position [p] *)
  Fixpoint reorder_loop (fuel : nat) (t : rule) (instr : pystr) (i : slot) (p : nat)
           (st : rstate * context) : res (rstate * context) :=
    match skipn p instr with
    | [] => Ok st
    | rest =>
        match fuel with
        | O => Raise OutOfFuel
        | S f =>
            do codes <- get_charcodes t rest;
            do st' <- reorder_codes instr i p codes st;
            reorder_loop f t instr i (p + length codes) st'
        end
    end.

  (** ldml_keyboard.py 222-282 (_process_reorder), for a table that exists *)
  Definition process_reorder (t : rule) (i : slot) (c : context) : res context :=
    let instr := input c i in
    let c1 := reset_output c i in
    let start := l_off (lget c1 i) in
    do n <- scan_start (length instr) t (skipn start instr);
    let c2 := if Nat.eqb n 0 then c1 else results c1 i n (slice instr start (start + n)) in
    let p := start + n in
    do (r, c3) <- reorder_loop (length instr) t instr i p (mkR p [] true 0 p, c2);
    if Nat.ltb (rr_start r) (length instr) then
      do out <- sort_run (slice instr (rr_start r) (length instr)) (rr_keys r);
      let l := lget c3 i in
      Ok (lset c3 i (mkLayer (l_stable l) (l_out l ++ out) (l_off l)))
    else Ok c3.
End Reorder.

(** ** Keystrokes *)

Section Keys.
  Variable ws : N -> bool.
  Variable lower : pystr -> pystr.
  Variable pyint : pystr -> option Z.

  Definition bksp : pystr := lit "BKSP".

  (** ldml_keyboard.py 147-154 (map_key). A key without [to] makes struni fail. *)
  Definition map_key (kb : keyboard) (k : pystr) (mods : list pystr) : res pystr :=
    match dget streq (k_mods kb) (join [32%N] (isort strleb mods)) with
    | None => Ok []
    | Some kind =>
        match nth_error (k_maps kb) kind with
        | None => Raise IndexError
        | Some m =>
            match dget optstr_eqb m (Some k) with
            | None => Ok []
            | Some None => Raise TypeError
            | Some (Some v) => struni v
            end
        end
    end.

  Definition table (kb : keyboard) (name : pystr) : option rule :=
    option_map rs_trie (dget optstr_eqb (k_trans kb) (Some name)).
  (** [self.settings.get(name, "") == value] *)
  Definition setting_is (kb : keyboard) (name value : pystr) : bool :=
    streq (match dget streq (k_settings kb) name with Some v => v | None => [] end) value.

  (** ldml_keyboard.py 162-191 with the settings and the check for a table *)
  Definition simple_layer (kb : keyboard) (c : context) : res (bool * context) :=
    match table kb (lit "simple") with
    | None => Ok (true, process_empty c SSimple)
    | Some t => process_simple t (setting_is kb (lit "transformPartial") (lit "hide"))
                               (setting_is kb (lit "transformFailure") (lit "omit"))
                               (setting_is kb (lit "fallback") (lit "omit")) SSimple c
    end.
  Definition final_layer (kb : keyboard) (c : context) : res (bool * context) :=
    match table kb (lit "final") with
    | None => Ok (true, process_empty c SFinal)
    | Some t => process_simple t false false false SFinal c
    end.
  Definition reorder_layer (kb : keyboard) (c : context) : res context :=
    match table kb (lit "reorder") with
    | None => Ok (process_empty c SReorder)
    | Some t => process_reorder ws lower pyint t SReorder c
    end.

  (** ldml_keyboard.py 284-301 (_process_backspace): there is no chomp method, and a str
      does not support assignment to a slice *)
  Definition process_backspace (kb : keyboard) (c : context) : res (bool * context) :=
    match table kb (lit "backspace") with
    | None => Raise AttributeError
    | Some t =>
        let instr := rev (l_out (c_final c)) in
        do (r, _) <- rules_match t instr false false;
        match r with
        | Some rl => if is_error rl then Ok (false, c) else Raise TypeError
        | None => let l := c_final c in
                  Ok (true, lset c SFinal (mkLayer (l_stable l) (rev (skipn 1 instr)) (l_off l)))
        end
    end.

  (** ldml_keyboard.py 138-145 (error) *)
  Definition error_context (hist : list context) : context :=
    let c := match rev hist with [] => new_context [] | c :: _ => clone c [] end in
    mkContext (c_base c) (c_simple c) (c_reorder c) (c_final c) true.

  (** ldml_keyboard.py 117-136 (process): the context returned and the new history. After a
      backspace rule with an error, 128 passes an argument that error does not take. *)
  Definition process (kb : keyboard) (hist : list context) (k : pystr) (mods : list pystr)
    : res (context * list context) :=
    do chars <- map_key kb k mods;
    let c := match rev hist with [] => new_context chars | c :: _ => clone c chars end in
    if streq k bksp then
      do (ok, c1) <- process_backspace kb c;
      if ok then Ok (c1, hist ++ [c1]) else Raise TypeError
    else
      do (ok1, c1) <- simple_layer kb c;
      if ok1 then
        do c2 <- reorder_layer kb c1;
        do (ok3, c3) <- final_layer kb c2;
        if ok3 then Ok (c3, hist ++ [c3]) else Ok (error_context hist, hist)
      else Ok (error_context hist, hist).

  (** ldml_keyboard.py 92-96: the contexts after each of a list of keystrokes, each the key
      and its modifiers *)
  Fixpoint process_keys (kb : keyboard) (hist : list context) (keys : list (pystr * list pystr))
    : res (list context) :=
    match keys with
    | [] => Ok []
    | (k, mods) :: keys' =>
        do (c, hist') <- process kb hist k mods;
        do cs <- process_keys kb hist' keys';
        Ok (c :: cs)
    end.

  (** ldml_keyboard.py 89: the text between each opening bracket and the next closing one,
      by [re.findall(r'\[\s*(.*?)\s*\]', txt)]; [.] does not match a newline, so a
      bracket with a newline among its words is passed over. *)
  Fixpoint until_close (s : pystr) : option (pystr * pystr) :=
    match s with
    | [] => None
    | c :: s' => if N.eqb c 93 then Some ([], s')
                 else match until_close s' with Some (a, b) => Some (c :: a, b) | None => None end
    end.
  Fixpoint lstrip (s : pystr) : pystr :=
    match s with
    | c :: s' => if ws c then lstrip s' else s
    | [] => []
    end.
  Definition strip (s : pystr) : pystr := rev (lstrip (rev (lstrip s))).
  Fixpoint bracketed (fuel : nat) (s : pystr) : list pystr :=
    match fuel with
    | O => []
    | S f =>
        match s with
        | [] => []
        | c :: s' =>
            if N.eqb c 91 then
              match until_close s' with
              | Some (a, b) => if inchars 10 (strip a) then bracketed f s' else strip a :: bracketed f b
              | None => bracketed f s'
              end
            else bracketed f s'
        end
    end.
  (** ldml_keyboard.py 91-93: the last word is the key, the others its modifiers; a bracket
      without words raises *)
  Definition read_key (k : pystr) : res (pystr * list pystr) :=
    match rev (words ws k) with
    | [] => Raise IndexError
    | w :: ms => Ok (w, map lower (rev ms))
    end.
  (** ldml_keyboard.py 85-96 (process_string), all its results; the history starts empty *)
  Fixpoint process_brackets (kb : keyboard) (hist : list context) (l : list pystr)
    : res (list context) :=
    match l with
    | [] => Ok []
    | b :: l' =>
        do (k, mods) <- read_key b;
        do (c, hist') <- process kb hist k mods;
        do cs <- process_brackets kb hist' l';
        Ok (c :: cs)
    end.
  Definition process_string (kb : keyboard) (txt : pystr) : res (list context) :=
    process_brackets kb [] (bracketed (length txt) txt).
End Keys.

(** Model of reading a document in chunks: XMLParser (/repo/lib/sldr/py3xmlparser.py 84-292),
    TreeBuilder (9-80) with elements that are shared and changed in place, and the loop of
    Ldml.__init__ over the events of iterparse (/repo/lib/sldr/ldml.py 435-477).
    M_TreeBuilder has the builder alone and the loop as a recursion over a finished tree; here
    elements have numbers, the builder and the loop work on the same elements, and the loop runs
    behind the builder by as much as the chunks make it.
    Simplifications: expat is given by the calls it makes for the bytes of a chunk; iterparse is
    that of the standard library (feed a chunk, then run through the queued events, and so on);
    the memo of names and the attribute [document] are left out; ParseError is [SyntaxErr]. *)
From Coq Require Import String.
From Verif Require Import Py M_TreeBuilder.
Local Open Scope list_scope.
Local Open Scope nat_scope.

(** The calls that expat makes: the handlers set in py3xmlparser.py:118-132 and 161-183 and in
    ldml.py:445. Attributes come as a list of alternating names and values. *)
Inductive raw :=
| XStart (name : pystr) (attrs : list pystr)
| XEnd (name : pystr)
| XData (s : pystr)
| XComment (s : pystr)
| XNs (prefix uri : option pystr)
| XDefault (s : pystr)
| XError.                                     (* the input is not well-formed here *)

(** The calls to the builder, and the namespace events that pass it by *)
Inductive op :=
| OStart (tag : pystr) (attrs : list (pystr * pystr))
| OEnd (tag : pystr)
| OData (s : pystr)
| ONs (prefix uri : pystr).

(** py3xmlparser.py:193-202 _fixname: the name that the memo holds is always this one *)
Definition fixname (key : pystr) : pystr :=
  if existsb (N.eqb 125) key then 123%N :: key else key.

(** py3xmlparser.py:208-213: the dictionary of attributes *)
Fixpoint attr_dict (d : list (pystr * pystr)) (l : list pystr) : res (list (pystr * pystr)) :=
  match l with
  | [] => Ok d
  | [_] => Raise IndexError
  | k :: v :: l' => attr_dict (dset streq d (fixname k) v) l'
  end.

(** py3xmlparser.py:219-266 _default. [ws] is str.isspace; self.entity is empty and stays so;
    the builder has no method doctype, and self.doctype is not overridden, so that the only
    effect is on self._doctype. *)
Section Default.
Variable ws : N -> bool.
Fixpoint lstrip (s : pystr) : pystr :=
  match s with c :: s' => if ws c then lstrip s' else s | [] => [] end.
Definition strip (s : pystr) : pystr := rev (lstrip (rev (lstrip s))).
Definition default (dt : option (list pystr)) (text : pystr) : res (option (list pystr)) :=
  match text with
  | 38%N :: _ => Raise SyntaxErr                                   (* undefined entity *)
  | _ =>
      if startswith (lit "<!DOCTYPE") text then Ok (Some [])
      else
        match dt with
        | None => Ok None
        | Some seen =>
            match text with
            | 62%N :: _ => Ok None
            | _ =>
                match strip text with
                | [] => Ok dt
                | t =>
                    let seen' := seen ++ [t] in
                    let n := length seen' in
                    if Nat.ltb 2 n then
                      let type := nth 1 seen' [] in
                      if ((streq type (lit "PUBLIC") && Nat.eqb n 4)
                          || (streq type (lit "SYSTEM") && Nat.eqb n 3))%bool
                      then Ok None else Ok (Some seen')
                    else Ok (Some seen')
                end
            end
        end
  end.

(** What a call of expat becomes: 161-183, 204-217; ldml.py:441-444 for comments *)
Definition handle (dt : option (list pystr)) (x : raw) : res (list op * option (list pystr)) :=
  match x with
  | XStart name attrs => do d <- attr_dict [] attrs; Ok ([OStart (fixname name) d], dt)
  | XEnd name => Ok ([OEnd (fixname name)], dt)
  | XData s => Ok ([OData s], dt)
  | XComment s => do d <- attr_dict [] [lit "text"; s]; Ok ([OStart (fixname (lit "!--")) d; OEnd (fixname (lit "!--"))], dt)
  | XNs p u => Ok ([ONs (match p with Some s => s | None => [] end) (match u with Some s => s | None => [] end)], dt)
  | XDefault s => do dt' <- default dt s; Ok ([], dt')
  | XError => Raise SyntaxErr
  end.
End Default.

(** ** The builder, on numbered elements *)
Record node := mkN { n_tag : pystr; n_attrs : list (pystr * pystr); n_text : option pystr; n_tail : option pystr }.
Definition dummy : node := mkN [] [] None None.

(** The elements made so far, the children of each, and the state of the builder
    (py3xmlparser.py:22-29; [b_elem] innermost first) *)
Record bst := mkB {
  b_nodes : list node;
  b_kids : list (list nat);
  b_data : list pystr;
  b_elem : list nat;
  b_last : option nat;
  b_tail : bool
}.
Definition b_init : bst := mkB [] [] [] [] None false.
Definition b_node (b : bst) (i : nat) : node := nth i (b_nodes b) dummy.

Fixpoint upd_nth {A} (i : nat) (f : A -> A) (l : list A) : list A :=
  match l, i with
  | [], _ => []
  | x :: l', O => f x :: l'
  | x :: l', S i' => x :: upd_nth i' f l'
  end.

(** The events of iterparse; XMLPullParser.feed of the standard library puts a ParseError into
    the queue too, to be raised when its turn comes *)
Inductive qev :=
| QStart (i : nat)
| QEnd (i : nat)
| QNs (prefix uri : pystr)
| QErr (e : exn).

(** py3xmlparser.py:37-47 *)
Definition b_flush (b : bst) : res bst :=
  match b_data b with
  | [] => Ok b
  | ds =>
      match b_last b with
      | None => Ok (mkB (b_nodes b) (b_kids b) [] (b_elem b) (b_last b) (b_tail b))
      | Some l =>
          let n := b_node b l in
          if b_tail b then
            match n_tail n with
            | Some _ => Raise AssertionError
            | None => Ok (mkB (upd_nth l (fun n => mkN (n_tag n) (n_attrs n) (n_text n) (Some (concat ds))) (b_nodes b))
                            (b_kids b) [] (b_elem b) (b_last b) (b_tail b))
            end
          else
            match n_text n with
            | Some _ => Raise AssertionError
            | None => Ok (mkB (upd_nth l (fun n => mkN (n_tag n) (n_attrs n) (Some (concat ds)) (n_tail n)) (b_nodes b))
                            (b_kids b) [] (b_elem b) (b_last b) (b_tail b))
            end
      end
  end.

(** py3xmlparser.py:49-79 and the events of 165-183 *)
Definition b_op (b : bst) (o : op) : res (bst * list qev) :=
  match o with
  | OData s => Ok (mkB (b_nodes b) (b_kids b) (b_data b ++ [s]) (b_elem b) (b_last b) (b_tail b), [])
  | ONs p u => Ok (b, [QNs p u])
  | OStart tag attrs =>
      do b <- b_flush b;
      let j := length (b_nodes b) in
      let kids := match b_elem b with [] => b_kids b | p :: _ => upd_nth p (fun l => l ++ [j]) (b_kids b) end in
      Ok (mkB (b_nodes b ++ [mkN tag attrs None None]) (kids ++ [[]]) (b_data b) (j :: b_elem b) (Some j) false,
          [QStart j])
  | OEnd tag =>
      do b <- b_flush b;
      match b_elem b with
      | [] => Raise IndexError
      | i :: es =>
          if streq (n_tag (b_node b i)) tag
          then Ok (mkB (b_nodes b) (b_kids b) (b_data b) es (Some i) true, [QEnd i])
          else Raise AssertionError
      end
  end.
Fixpoint b_ops (b : bst) (os : list op) : res (bst * list qev) :=
  match os with
  | [] => Ok (b, [])
  | o :: os' =>
      do (b1, q1) <- b_op b o;
      do (b2, q2) <- b_ops b1 os';
      Ok (b2, q1 ++ q2)
  end.

(** ** The loop of Ldml.__init__ *)
(** Its variables and the attributes that it sets on elements; hasattr is presence here *)
Record reader := mkR {
  r_curr : option nat;
  r_root : option nat;
  r_comments : list pystr;
  r_ns : list (pystr * pystr);
  r_before : list (nat * list pystr);       (* comments *)
  r_after : list (nat * list pystr);        (* commentsafter *)
  r_parent : list (nat * nat);
  r_hdc : list (nat * bool)                 (* hasdeletedchild *)
}.
Definition r_init : reader := mkR None None [] [] [] [] [] [].

(** list.remove, on elements (equality is identity) *)
Fixpoint remove1 (i : nat) (l : list nat) : option (list nat) :=
  match l with
  | [] => None
  | x :: l' => if Nat.eqb x i then Some l' else match remove1 i l' with Some r => Some (x :: r) | None => None end
  end.
(** [e.remove(x)] for e a number or None *)
Definition take_out (kids : list (list nat)) (e : option nat) (x : nat) : res (list (list nat)) :=
  match e with
  | None => Raise AttributeError
  | Some c =>
      match remove1 x (nth c kids []) with
      | Some l => Ok (upd_nth c (fun _ => l) kids)
      | None => Raise ValueError
      end
  end.

Section Loop.
Variable uparrows : bool.

(** ldml.py:446-476, one event; the result is the children and the variables after it *)
Definition r_step (nodes : list node) (kids : list (list nat)) (rd : reader) (q : qev)
  : res (list (list nat) * reader) :=
  match q with
  | QErr e => Raise e
  | QNs p u =>
      Ok (kids, mkR (r_curr rd) (r_root rd) (r_comments rd) (dset streq (r_ns rd) u p) (r_before rd) (r_after rd) (r_parent rd) (r_hdc rd))
  | QStart i =>
      let n := nth i nodes dummy in
      if streq (n_tag n) comment_tag then
        (* 451-452; [get] gives None for no text, which doComment does not do *)
        Ok (kids, mkR (r_curr rd) (r_root rd)
              (r_comments rd ++ [match dget streq (n_attrs n) (lit "text") with Some t => t | None => [] end])
              (r_ns rd) (r_before rd) (r_after rd) (r_parent rd) (r_hdc rd))
      else
        let before := match r_comments rd with [] => r_before rd | c => dset Nat.eqb (r_before rd) i c end in
        match r_curr rd with
        | Some c => Ok (kids, mkR (Some i) (r_root rd) [] (r_ns rd) before (r_after rd) (dset Nat.eqb (r_parent rd) i c) (r_hdc rd))
        | None => Ok (kids, mkR (Some i) (Some i) [] (r_ns rd) before (r_after rd) (r_parent rd) (r_hdc rd))
        end
  | QEnd i =>
      let n := nth i nodes dummy in
      if streq (n_tag n) comment_tag then
        match r_curr rd with
        | None => Ok (kids, rd)
        | Some _ => do kids' <- take_out kids (r_curr rd) i; Ok (kids', rd)
        end
      else
        let ks := nth i kids [] in
        (* 466-468 *)
        let '(after, comments) :=
          match r_comments rd, rev ks with
          | c :: cs, k :: _ => (dset Nat.eqb (r_after rd) k (c :: cs), [])
          | cs, _ => (r_after rd, cs)
          end in
        let curr := dget Nat.eqb (r_parent rd) i in
        let rd1 := fun hdc => mkR curr (r_root rd) comments (r_ns rd) (r_before rd) after (r_parent rd) hdc in
        if uparrows then Ok (kids, rd1 (r_hdc rd))
        else
          let inherit := match n_text n with Some t => streq t uparrow3 | None => false end in
          let hollow := (match dget Nat.eqb (r_hdc rd) i with Some b => b | None => false end
                         && match ks with [] => true | _ => false end)%bool in
          if (inherit || hollow)%bool then
            do kids' <- take_out kids curr i;
            match curr with
            | None => Raise AttributeError
            | Some c => Ok (kids', rd1 (dset Nat.eqb (r_hdc rd) c true))
            end
          else
            match curr with
            | None => Ok (kids, rd1 (r_hdc rd))
            | Some c => Ok (kids, rd1 (dset Nat.eqb (r_hdc rd) c false))
            end
  end.

(** ** Parser and loop together *)
Record state := mkS { s_b : bst; s_dt : option (list pystr); s_queue : list qev; s_r : reader }.
Definition s_init : state := mkS b_init None [] r_init.
Definition with_kids (b : bst) (k : list (list nat)) : bst :=
  mkB (b_nodes b) k (b_data b) (b_elem b) (b_last b) (b_tail b).

(** the loop runs through the events that are queued *)
Fixpoint r_run (b : bst) (rd : reader) (qs : list qev) : res (bst * reader) :=
  match qs with
  | [] => Ok (b, rd)
  | q :: qs' =>
      do (k, rd') <- r_step (b_nodes b) (b_kids b) rd q;
      r_run (with_kids b k) rd' qs'
  end.
Definition read_events (s : state) : res state :=
  do (b, rd) <- r_run (s_b s) (s_r s) (s_queue s); Ok (mkS b (s_dt s) [] rd).

Variable ws : N -> bool.
(** parser.feed of a chunk (268-273): after a ParseError the rest is not looked at *)
Fixpoint feed (s : state) (xs : list raw) : res state :=
  match xs with
  | [] => Ok s
  | x :: xs' =>
      match handle ws (s_dt s) x with
      | Raise SyntaxErr => Ok (mkS (s_b s) (s_dt s) (s_queue s ++ [QErr SyntaxErr]) (s_r s))
      | Raise e => Raise e
      | Ok (os, dt) =>
          do (b, q) <- b_ops (s_b s) os;
          feed (mkS b dt (s_queue s ++ q) (s_r s)) xs'
      end
  end.
(** parser.close (275-292) and TreeBuilder.close (31-35) *)
Definition close (s : state) : res state :=
  match b_elem (s_b s), b_last (s_b s) with
  | [], Some _ => Ok s
  | _, _ => Raise AssertionError
  end.
(** iterparse and the loop: read what is queued, feed a chunk, and so on; then close *)
Fixpoint load (s : state) (chunks : list (list raw)) : res state :=
  match chunks with
  | [] => do s1 <- read_events s; do s2 <- close s1; read_events s2
  | c :: cs => do s1 <- read_events s; do s2 <- feed s1 c; load s2 cs
  end.
End Loop.

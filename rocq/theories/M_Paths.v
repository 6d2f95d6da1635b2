(** Model of the path functions of Ldml: _process_path, _unify_path, _add_inserted_node,
    ensure_path, remove_path, find and findall (/repo/lib/sldr/ldml.py 602-739). *)
From Coq Require Import String.
From Verif Require Import Py M_LdmlBase M_Collation M_Serialize M_Normalise M_Drafts.
Local Open Scope list_scope.
Local Open Scope nat_scope.

(** * Places in a document: Python uses object identity, the model the way from the root:
    to a child by its index, or to an alternate by its name. *)
Inductive hop := K (i : nat) | A (k : pystr).
Notation place_in_doc := (list hop).

Fixpoint at_place (n : lnode) (p : place_in_doc) : option lnode :=
  match p with
  | [] => Some n
  | K i :: p' => match nth_error (lkids n) i with Some c => at_place c p' | None => None end
  | A k :: p' =>
      match lalts n with
      | Some alts => match dget streq alts k with Some c => at_place c p' | None => None end
      | None => None
      end
  end.

(** the document with the element at a place replaced *)
Fixpoint put_at (n : lnode) (p : place_in_doc) (x : lnode) : lnode :=
  match p with
  | [] => x
  | K i :: p' =>
      match nth_error (lkids n) i with
      | Some c => set_kids n (replace_nth i (put_at c p' x) (lkids n))
      | None => n
      end
  | A k :: p' =>
      match lalts n with
      | Some alts => match dget streq alts k with
                     | Some c => set_alts n (Some (dset streq alts k (put_at c p' x)))
                     | None => n
                     end
      | None => n
      end
  end.

(** the place of the element's parent attribute: an alternate has the parent of its primary *)
Fixpoint up (rp : place_in_doc) : option place_in_doc :=     (* on the reversed place *)
  match rp with
  | [] => None
  | K _ :: rp' => Some (rev rp')
  | A _ :: rp' => up rp'
  end.
Definition parent_place (p : place_in_doc) : option place_in_doc := up (rev p).

(** * Reading a path: lines 671-689 *)
Notation pathstep := (pystr * list (pystr * pystr))%type.

(** up to the next "]" on the same line: [.*?\]] *)
Fixpoint to_close (s : pystr) : option (pystr * pystr) :=
  match s with
  | [] => None
  | c :: s' =>
      if N.eqb c 93 then Some ([], s')
      else if N.eqb c 10 then None
      else match to_close s' with Some (a, r) => Some (c :: a, r) | None => None end
  end.
(** re.split(r"\[(.*?)\]", s): texts and bracketed parts in turn. [fuel] is the length of the
    string plus one, which is enough: every call drops a character. *)
Fixpoint split_brackets (fuel : nat) (acc s : pystr) : list pystr :=
  match fuel with
  | O => [acc]
  | S f =>
      match s with
      | [] => [acc]
      | c :: s' =>
          if N.eqb c 91 then
            match to_close s' with
            | Some (a, r) => acc :: a :: split_brackets f [] r
            | None => split_brackets f (acc ++ [c]) s'
            end
          else split_brackets f (acc ++ [c]) s'
      end
  end.

Section Paths.
  Variable ws : N -> bool.              (* white space *)
  Variable hasher : pystr -> Z.
  Variable m : meta.
  Variable dd : pystr.                  (* self.default_draft *)
  Variable useDrafts : bool.
  Variable ud uid : option pystr.       (* self.use_draft, self.uid *)
  Variable ns : list (pystr * pystr).   (* self.namespaces *)

  Definition rstrip (s : pystr) : pystr := rev (lstrip ws (rev s)).

  (** lines 683-688: one bracketed part. None: nothing to add. *)
  Definition read_test (p : pystr) : res (option (pystr * pystr)) :=
    match p with
    | [] => Ok None
    | _ =>
        match partition1 61%N p with                  (* re.split(r'\s*=\s*', p, maxsplit=1) *)
        | None => Raise ValueError                    (* one value to unpack *)
        | Some (k, v) =>
            let k := rstrip k in
            let v := lstrip ws v in
            match k with
            | 64%N :: k' =>
                match v with
                | [] => Raise IndexError
                | q :: _ =>
                    if (N.eqb q 34 || N.eqb q 39)%bool
                    then Ok (Some (reverse_localns ns k', removelast (tl v)))  (* v[1:-1] *)
                    else Ok None
                end
            | _ => Ok None
            end
        end
    end.
  Fixpoint read_tests (ps : list pystr) (attrs : list (pystr * pystr)) : res (list (pystr * pystr)) :=
    match ps with
    | [] => Ok attrs
    | p :: ps' =>
        do t <- read_test p;
        read_tests ps' (match t with Some (k, v) => dset streq attrs k v | None => attrs end)
    end.
  (** lines 677-689: one step. A step without brackets is a plain string in Python and has no
      attributes to test; here it has the empty dictionary, which does the same. *)
  Definition read_step (s : pystr) : res pathstep :=
    match split_brackets (S (List.length s)) [] s with
    | [] => Ok ([], [])                                (* not reached *)
    | tag :: parts =>
        do attrs <- read_tests parts [];
        Ok (reverse_localns ns tag, attrs)
    end.
  Fixpoint read_steps (l : list pystr) : res (list pathstep) :=
    match l with
    | [] => Ok []
    | s :: l' => do x <- read_step s; do xs <- read_steps l'; Ok (x :: xs)
    end.
  Definition read_path (path : pystr) : res (list pathstep) :=
    if startswith (lit "/") path then Raise SyntaxErr
    else read_steps (split_on 47%N path).

  (** * Following a path: lines 616-669 *)
  (** lines 633-640 *)
  Definition step_match (st : pathstep) (c : lnode) : bool :=
    streq (ltag c) (fst st)
    && forallb (fun kv : pystr * pystr =>
                  streq (match lget c (fst kv) with Some v => v | None => [] end) (snd kv)) (snd st).
  (** the children of the element at [p] that match *)
  Definition matching_kids (root : lnode) (st : pathstep) (p : place_in_doc) : list place_in_doc :=
    match at_place root p with
    | None => []
    | Some n =>
        map (fun ic : nat * lnode => p ++ [K (fst ic)])
          (filter (fun ic : nat * lnode => step_match st (snd ic))
             (combine (seq 0 (List.length (lkids n))) (lkids n)))
    end.

  Inductive draftmatch := MatchDraft | MatchAlt | MatchBoth.

  (** lines 641-661: the last step when alternates are asked for *)
  Definition match_alternates (root : lnode) (md : draftmatch) (draft : option pystr) (realalt : pystr)
      (p : place_in_doc) : list place_in_doc :=
    match at_place root p with
    | None => []
    | Some c =>
        let hasdraft x := opteq (Some (match lget x (lit "draft") with Some d => d | None => [] end)) draft in
        (match md with
         | MatchDraft => if hasdraft c then [p] else []
         | _ => []
         end)
        ++ match lalts c with
           | None => []
           | Some alts =>
               flat_map (fun t => match dget streq alts t with
                                  | None => []
                                  | Some r => match md with
                                              | MatchAlt => [p ++ [A t]]
                                              | _ => if hasdraft r then [p ++ [A t]] else []
                                              end
                                  end)
                 (match md with MatchDraft => dkeys alts | _ => [realalt] end)
           end
    end.

  (** insert at an index / remove at an index *)
  Fixpoint insert_nth {X} (i : nat) (x : X) (l : list X) : list X :=
    match i, l with
    | O, _ => x :: l
    | S i', y :: l' => y :: insert_nth i' x l'
    | S _, [] => [x]
    end.
  Fixpoint remove_nth {X} (i : nat) (l : list X) : list X :=
    match i, l with
    | _, [] => []
    | O, _ :: l' => l'
    | S i', y :: l' => y :: remove_nth i' l'
    end.

  (** lines 602-614 (_add_inserted_node) on the element at [parent]: the document and the
      place of the element returned *)
  Definition add_inserted_node (root : lnode) (before draft text : option pystr) (parent : place_in_doc)
      (st : pathstep) (alt : option pystr) : res (lnode * place_in_doc) :=
    match at_place root parent with
    | None => Raise AttributeError                     (* not reached *)
    | Some pn =>
        do r <- addnode hasher m dd useDrafts ud uid ns pn (fst st) (snd st)
                  (match draft with Some d => [(lit "draft", d)] | None => [] end) alt;
        let '(pn, (i, w)) := r in
        do r2 <- match before with
                 | None => Ok (pn, i)
                 | Some b =>
                     match index_where (fun e => streq (ltag e) b) (lkids pn) with
                     | None => Ok (pn, i)
                     | Some j =>
                         match w with
                         | Alternate _ => Raise ValueError   (* list.remove(x): x not in list *)
                         | Primary =>
                             match nth_error (lkids pn) i with
                             | Some se => let l := remove_nth i (lkids pn) in
                                          Ok (set_kids pn (insert_nth j se l), Nat.min j (List.length l))
                             | None => Ok (pn, i)            (* not reached *)
                             end
                         end
                     end
                 end;
        let '(pn, i) := r2 in
        let wh := K i :: match w with Primary => [] | Alternate k => [A k] end in
        let pn := match text with
                  | None => pn
                  | Some t => match at_place pn wh with
                              | Some se => put_at pn wh (set_text se (Some t))
                              | None => pn                   (* not reached *)
                              end
                  end in
        Ok (put_at root parent pn, parent ++ wh)
    end.

  (** lines 626-669. [add]: action == "add". [before] never reaches this function. *)
  Fixpoint unify (add : bool) (text draft alt : option pystr) (md : option draftmatch)
      (steps : list pathstep) (root : lnode) (curr : list place_in_doc) (parent : place_in_doc)
    : res (lnode * list place_in_doc) :=
    match steps with
    | [] => Ok (root, curr)
    | st :: steps' =>
        let new := if streq (fst st) (lit ".") then curr
                   else flat_map (matching_kids root st) curr in
        let new := match md, steps' with
                   | Some md, [] => flat_map (match_alternates root md draft (alt_name uid alt)) new
                   | _, _ => new
                   end in
        match new with
        | p :: _ => unify add text draft alt md steps' root new p
        | [] =>
            if add then
              do r <- add_inserted_node root None draft text parent st alt;
              unify add text draft alt md steps' (fst r) [snd r] (snd r)
            else Ok (root, [])
        end
    end.

  (** lines 671-691 *)
  Definition process_path (add : bool) (text draft alt : option pystr) (md : option draftmatch)
      (root : lnode) (base : place_in_doc) (path : pystr)
    : res (lnode * list place_in_doc * list pathstep) :=
    do steps <- read_path path;
    do r <- unify add text (match draft with None => ud | d => d end) alt md steps root [base] base;
    Ok (r, steps).

  (** lines 704-711: the elements found whose text is the one wanted *)
  Fixpoint with_text (t : pystr) (draft alt : option pystr) (root : lnode) (curr : list place_in_doc)
    : res (lnode * list place_in_doc) :=
    match curr with
    | [] => Ok (root, [])
    | p :: curr' =>
        match at_place root p with
        | None => with_text t draft alt root curr'          (* not reached *)
        | Some j =>
            do root2 <-
              (if opteq (ltext j) (Some t) then
                 match draft with
                 | None => Ok root
                 | Some d =>
                     do g <- get_draft dd (lget j (lit "draft")) None;
                     if rating (Some d) maxrating <? g
                     then Ok (put_at root p (change_draft ud uid j d alt)) else Ok root
                 end
               else Ok root);
            (* the extras are the names of the alternates: a str has no text *)
            match draft, lalts j with
            | Some _, Some (_ :: _) => Raise AttributeError
            | _, _ =>
                do r <- with_text t draft alt root2 curr';
                Ok (fst r, if opteq (ltext j) (Some t) then p :: snd r else snd r)
            end
        end
    end.

  (** lines 693-718 (ensure_path) *)
  Definition ensure_path (root : lnode) (base : place_in_doc) (path : pystr)
      (text draft alt before : option pystr) (dontadd : bool) (md : option draftmatch)
    : res (lnode * list place_in_doc) :=
    do r <- process_path (negb dontadd) text draft alt md root base path;
    let '(root, curr, steps) := r in
    match text, dontadd with
    | Some t, false =>
        do r2 <- with_text t draft alt root curr;
        match snd r2 with
        | _ :: _ => Ok r2
        | [] =>
            match curr, rev steps with
            | p :: _, st :: _ =>
                match parent_place p with
                | None => Raise AttributeError              (* the root has no parent *)
                | Some pp =>
                    do r3 <- add_inserted_node (fst r2) before draft text pp st alt;
                    Ok (fst r3, [snd r3])
                end
            | _, _ => Raise IndexError                      (* not reached *)
            end
        end
    | _, _ => Ok (root, curr)
    end.

  (** lines 732-739 (find, findall); the document is returned to show what becomes of it *)
  Definition findall (root : lnode) (base : place_in_doc) (path : pystr)
    : res (lnode * list place_in_doc) :=
    ensure_path root base path None None None None true None.
  Definition find (root : lnode) (base : place_in_doc) (path : pystr)
    : res (lnode * option place_in_doc) :=
    do r <- findall root base path;
    Ok (fst r, match snd r with p :: _ => Some p | [] => None end).
End Paths.

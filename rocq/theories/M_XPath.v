(** Model of lib/sldr/ldml.py 720-727 (remove_path) and 854-865 (as_xpath): taking away what a path finds,
    and the path of an element. *)
From Coq Require Import String.
From Verif Require Import Py M_LdmlBase M_Collation M_Serialize M_Normalise M_Drafts M_Paths.
Local Open Scope list_scope.
Local Open Scope nat_scope.

Section XPath.
  Variable m : meta.
  Variable usedrafts : bool.

  (** line 863: the attributes of the element that are distinguishing, in the order they are written *)
  Definition own_tests (n : lnode) : list (pystr * pystr) :=
    map (fun k => (k, match lget n k with Some v => v | None => [] end))
      (filter (is_dist m usedrafts (ltag n)) (sortedattrs (meta_writer m) (ltag n) (dkeys (lattrs n)))).
  (** line 864: '[@{}="{}"]'.format(k, v) *)
  Definition own_step (n : lnode) : pystr :=
    ltag n ++ flat_map (fun kv : pystr * pystr => lit "[@" ++ fst kv ++ lit "=""" ++ snd kv ++ lit """]") (own_tests n).
  (** lines 861-864: what is appended to the path of the parent *)
  Definition then_step (up : pystr) (n : lnode) : pystr :=
    (match up with [] => [] | _ => up ++ lit "/" end) ++ own_step n.
  (** lines 854-865. The recursion over [parent] ends at the root; here it goes down from the root to the place:
      [up] is the path of the parent of [n] and [own] that of [n]. The parent of an alternate is the
      parent of its primary (ldml.py 499). *)
  Fixpoint xpath_down (n : lnode) (up own : pystr) (p : place_in_doc) : option pystr :=
    match p with
    | [] => Some own
    | K i :: p' =>
        match nth_error (lkids n) i with
        | Some c => xpath_down c own (then_step own c) p'
        | None => None
        end
    | A k :: p' =>
        match lalts n with
        | Some alts => match dget streq alts k with
                       | Some c => xpath_down c up (then_step up c) p'
                       | None => None
                       end
        | None => None
        end
    end.
  Definition as_xpath (root : lnode) (p : place_in_doc) : option pystr := xpath_down root [] [] p.
End XPath.

(** line 726: [c.parent.remove(c)]. The root has no parent (ldml.py 457-460), an alternate is not among the
    children of its parent. *)
Definition remove_at (root : lnode) (p : place_in_doc) : res lnode :=
  match rev p with
  | [] => Raise AttributeError
  | A _ :: _ => Raise ValueError
  | K i :: rp =>
      match at_place root (rev rp) with
      | Some n => Ok (put_at root (rev rp) (set_kids n (remove_nth i (lkids n))))
      | None => Raise AttributeError                          (* not reached *)
      end
  end.

Section Remove.
  Variable ws : N -> bool.
  Variable hasher : pystr -> Z.
  Variable m : meta.
  Variable dd : pystr.
  Variable useDrafts : bool.
  Variable ud uid : option pystr.
  Variable ns : list (pystr * pystr).
  (** lines 720-727. The elements are taken away from the last to the first: in Python the list holds the
      elements themselves, here it holds their places, and these would change. *)
  Definition remove_path (root : lnode) (base : place_in_doc) (path : pystr)
      (text draft alt : option pystr) (md : option draftmatch) : res (lnode * list place_in_doc) :=
    do r <- process_path ws hasher m dd useDrafts ud uid ns false text draft alt md root base path;
    let '(root, found, _) := r in
    do root2 <- fold_right (fun p r => do t <- r; remove_at t p) (Ok root) found;
    Ok (root2, found).
End Remove.

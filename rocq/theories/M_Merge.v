(** Model of LdmlMerge.difference, overlay, _overlay_child and _overlay_external_resources
    (/repo/lib/sldr/ldml_merge.py 53-127). *)
From Coq Require Import String.
From Verif Require Import Py M_LdmlBase M_Serialize M_Normalise M_Drafts.
Local Open Scope list_scope.
Local Open Scope nat_scope.

(** a loop over a list that may raise *)
Section FoldRes.
  Context {X S : Type}.
  Variable f : X -> S -> res S.
  Fixpoint fold_res (l : list X) (s : S) : res S :=
    match l with
    | [] => Ok s
    | x :: l' => do s' <- f x s; fold_res l' s'
    end.
End FoldRes.

(** lines 62, 90: the first child with the same key hash *)
Definition same_key (o x : lnode) : bool := Z.eqb (lah x) (lah o).
Definition key_index (o : lnode) (l : list lnode) : option nat := index_where (same_key o) l.

(** the text that stands for an inherited value *)
Definition arrows : pystr := [8593%N; 8593%N; 8593%N].

Fixpoint drop_nth {X} (i : nat) (l : list X) : list X :=
  match l, i with
  | [], _ => []
  | _ :: l', O => l'
  | y :: l', S i' => y :: drop_nth i' l'
  end.

Section Merge.
  Variable m : meta.                    (* for self.blocks *)

  Definition blocked (n : lnode) : bool := memstr (ltag n) (m_blocks m).

  (** ** difference: lines 53-72 *)

  (** lines 64-67: the alternates of [t] left when those equal in [o] are deleted *)
  Definition pare_alts (oalts talts : list (pystr * lnode)) : list (pystr * lnode) :=
    fold_left (fun ta (kv : pystr * lnode) =>
                 match dget streq ta (fst kv) with
                 | Some v => if Z.eqb (lch (snd kv)) (lch v) then ddel streq ta (fst kv) else ta
                 | None => ta
                 end) oalts talts.
  (** lines 64-71: what becomes of a child found to be the same. None: removed. *)
  Definition pare_child (o t : lnode) : option lnode :=
    match lalts t, lalts o with
    | Some ta, Some oa =>
        match pare_alts oa ta with
        | [] => None
        | ta' => Some (set_alts t (Some ta'))
        end
    | _, _ => None
    end.

  (** The value returned and what becomes of [this]. In Python the element is changed in place. *)
  Fixpoint difference (other this : lnode) {struct other} : bool * lnode :=
    match other with
    | LNode otag oattrs otext oah och oalts okids =>
        let leaves := match okids, lkids this with [], [] => true | _, _ => false end in
        if (leaves || blocked this)%bool then (Z.eqb och (lch this), this)
        else
          let this' :=
            fold_left
              (fun this o =>
                 match key_index o (lkids this) with
                 | None => this
                 | Some i =>
                     match nth_error (lkids this) i with
                     | None => this                      (* not reached *)
                     | Some t =>
                         let '(same, t') :=
                           if Z.eqb (lch o) (lch t) then (true, t) else difference o t in
                         if same then
                           match pare_child o t' with
                           | Some t2 => set_kids this (replace_nth i t2 (lkids this))
                           | None => set_kids this (drop_nth i (lkids this))
                           end
                         else set_kids this (replace_nth i t' (lkids this))
                     end
                 end) okids this in
          ((match lkids this' with [] => true | _ => false end)
           && (match ltext this' with None | Some [] => true | _ => opteq (ltext this') otext end),
           this')
    end.

  (** ** overlay: lines 74-127. The elements of the other document that are added are, in
      Python, the same objects as in the other document, which is thrown away by the callers;
      the model has copies. *)

  (** lines 87-97, [ov] is the recursive call on [o] *)
  Definition overlay_child (ov : lnode -> res lnode) (o this : lnode) : res lnode :=
    match key_index o (lkids this) with
    | Some i =>
        match nth_error (lkids this) i with
        | None => Ok this                                 (* not reached *)
        | Some t =>
            if Z.eqb (lch o) (lch t) then Ok this
            else
              do t' <- ov t;
              let t' := if (opteq (ltext t') (Some arrows) && negb (opteq (ltext o) (Some [])))%bool
                        then set_text t' (ltext o) else t' in
              Ok (set_kids this (replace_nth i t' (lkids this)))
        end
    | None =>
        if (negb (streq (ltag o) (lit "alias"))
            || match lkids this with [] => true | _ => false end)%bool
        then Ok (set_kids this (lkids this ++ [o])) else Ok this
    end.

  Definition ext_tag : pystr := siltag (lit "external-resources").
  Definition font_tag : pystr := siltag (lit "font").

  (** lines 118-121: the font without the type, if it has it *)
  Definition strip_type (t : pystr) (f : lnode) : lnode :=
    let tt := split_on 32%N (match lget f (lit "types") with Some s => s | None => lit "default" end) in
    if memstr t tt
    then set_attrs f (dset streq (lattrs f) (lit "types") (join [32%N] (filter (fun x => negb (streq x t)) tt)))
    else f.
  (** line 122 *)
  Definition has_types (f : lnode) : bool :=
    match lget f (lit "types") with None | Some [] => false | _ => true end.
  (** lines 113-122. Lines 111-112 are never used: split never gives an empty list. *)
  Fixpoint take_types (ts : list pystr) (fonts : list lnode) : list lnode :=
    match ts with
    | [] => fonts
    | t :: ts' =>
        if streq t (lit "default") then []
        else take_types ts' (filter has_types (map (strip_type t) fonts))
    end.
  Definition is_font (n : lnode) : bool := streq (ltag n) font_tag.

  Fixpoint overlay (other this : lnode) {struct other} : res lnode :=
    match other with
    | LNode _ _ _ _ _ _ okids =>
        fold_res
          (fun o this =>
             if blocked o then Ok this
             else if streq (ltag o) ext_tag then
               (* lines 99-127 *)
               match key_index o (lkids this) with
               | None => Raise IndexError                  (* [...][0] of an empty list *)
               | Some i =>
                   match nth_error (lkids this) i with
                   | None => Raise IndexError              (* not reached *)
                   | Some ext =>
                       match o with
                       | LNode _ _ _ _ _ _ okids2 =>
                           do r <- fold_res
                             (fun o2 (st : list lnode * lnode) =>
                                if is_font o2 then
                                  Ok (take_types (split_on 32%N (match lget o2 (lit "types") with
                                                                 | Some s => s | None => [] end)) (fst st),
                                      set_kids (snd st) (lkids (snd st) ++ [o2]))
                                else
                                  do e <- overlay_child (overlay o2) o2 (snd st); Ok (fst st, e))
                             okids2
                             (filter is_font (lkids ext),
                              set_kids ext (filter (fun x => negb (is_font x)) (lkids ext)));
                           let ext' := set_kids (snd r) (lkids (snd r) ++ fst r) in
                           Ok (set_kids this (replace_nth i ext' (lkids this)))
                       end
                   end
               end
             else overlay_child (overlay o) o this)
          okids this
    end.
End Merge.

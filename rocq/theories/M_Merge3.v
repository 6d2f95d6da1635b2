(** Model of the three way merge: LdmlMerge._align, _merge_with_alts, _merge_alts, _add_alt and
    merge (/repo/lib/sldr/ldml_merge.py 143-344). Simplifications: comments are not kept (so
    clash_text and clash_attrib, which write comments only, leave no trace: clashadd is not set
    anywhere in the repository and taken as false); sets of attribute names and alternate names
    are gone through in document order, where Python's order is arbitrary; changes to the base
    and the other document are not kept. *)
From Coq Require Import String.
From Verif Require Import Py M_LdmlBase M_Serialize M_Normalise M_Drafts M_Merge.
Local Open Scope list_scope.
Local Open Scope nat_scope.

(** ** _align: lines 143-187 *)

(** lines 146-147: dict([(x.contentHash, x) ...]).values() *)
Definition by_hash (l : list lnode) : list lnode :=
  dvalues (fold_left (fun d x => dset Z.eqb d (lch x) x) l []).
(** the element with a content hash, and the others *)
Fixpoint take_hash (h : Z) (l : list lnode) : option (lnode * list lnode) :=
  match l with
  | [] => None
  | x :: l' => if Z.eqb (lch x) h then Some (x, l')
               else match take_hash h l' with Some (y, r) => Some (y, x :: r) | None => None end
  end.
(** _arrayDict.pop: the last element with a key hash, and the others. Python keeps the same
    elements in olist by content and in odict by key (blist and bdict), and takes an element
    out of both; what is left in bdict only is passed over (lines 181-182). Here there is one
    list for both. *)
Fixpoint take_key (k : Z) (l : list lnode) : option (lnode * list lnode) :=
  match l with
  | [] => None
  | x :: l' => match take_key k l' with
               | Some (y, r) => Some (y, x :: r)
               | None => if Z.eqb (lah x) k then Some (x, l') else None
               end
  end.
Definition took (r : option (lnode * list lnode)) (l : list lnode) : option lnode * list lnode :=
  match r with Some (x, l') => (Some x, l') | None => (None, l) end.

Notation aligned := (option lnode * option lnode)%type.       (* mergeOther, mergeBase *)
(** lines 148-156 *)
Fixpoint align_same (ts os bs : list lnode) : list aligned * (list lnode * list lnode) :=
  match ts with
  | [] => ([], (os, bs))
  | t :: ts' =>
      let '(mo, os) := took (take_hash (lch t) os) os in
      let '(mb, bs) := took (take_hash (lch t) bs) bs in
      let '(ms, st) := align_same ts' os bs in
      ((mo, mb) :: ms, st)
  end.
(** lines 162-173, for the children without mergeOther *)
Fixpoint align_keys (ts : list lnode) (ms : list aligned) (os bs : list lnode)
  : list aligned * (list lnode * list lnode) :=
  match ts, ms with
  | t :: ts', (None, mb) :: ms' =>
      let '(mo, os) := took (take_key (lah t) os) os in
      let '(mb, bs) :=
        match mb with
        | Some _ => (mb, bs)
        | None =>
            match match mo with Some o => take_hash (lch o) bs | None => None end with
            | Some (b, bs) => (Some b, bs)
            | None => took (take_key (lah t) bs) bs
            end
        end in
      let '(ms2, st) := align_keys ts' ms' os bs in
      ((mo, mb) :: ms2, st)
  | _ :: ts', m :: ms' =>
      let '(ms2, st) := align_keys ts' ms' os bs in
      (m :: ms2, st)
  | _, _ => ([], (os, bs))
  end.
(** lines 174-187: copies of what is left of the other document, with mergeBase. The copy has
    no alternates (ldml.py 481-488). *)
Fixpoint align_new (os bs : list lnode) : list (lnode * option lnode) :=
  match os with
  | [] => []
  | e :: os' =>
      let '(mb, bs) :=
        match take_hash (lch e) bs with
        | Some (b, bs) => (Some b, bs)
        | None => took (take_key (lah e) bs) bs
        end in
      (set_alts e None, mb) :: align_new os' bs
  end.
Definition kids_of (n : option lnode) : list lnode := match n with Some n => lkids n | None => [] end.
Definition align (this : list lnode) (other base : option lnode)
  : list aligned * list (lnode * option lnode) :=
  let '(ms, (os, bs)) := align_same this (by_hash (kids_of other)) (by_hash (kids_of base)) in
  let '(ms, (os, bs)) := align_keys this ms os bs in
  (ms, align_new os bs).

Definition set_hash (n : lnode) (h : Z) : lnode :=
  let '(LNode t a x k _ al ks) := n in LNode t a x k h al ks.

(** a loop over two lists that may raise *)
Section ZipRes.
  Context {X Y R : Type}.
  Variable f : X -> Y -> res R.
  Fixpoint zip_res (l : list X) (l' : list Y) : res (list R) :=
    match l, l' with
    | x :: l, y :: l' => do r <- f x y; do rs <- zip_res l l'; Ok (r :: rs)
    | _, _ => Ok []
    end.
End ZipRes.

Section Merge3.
  Variable dd : pystr.                  (* self.default_draft *)
  Variable uid : option pystr.          (* self.uid *)
  Variable useDrafts : bool.
  Variable winner_other : bool.         (* self.winner == "other" *)
  Variable default : option pystr.      (* the argument of merge *)

  Definition draft3 (n : lnode) (default : option pystr) : res nat :=
    get_draft dd (lget n (lit "draft")) default.
  Definition truthy (t : option pystr) : bool := match t with Some (_ :: _) => true | _ => false end.

  (** lines 274-277 (_add_alt) on the base: the base with a copy of [target] as an alternate.
      If the copy is promoted, the base keeps its dictionary, which is then that of the copy,
      with the base itself in it. *)
  Definition add_alt (base target : lnode) : res lnode :=
    let origin := set_alts target None in
    let alt := alt_name uid None in
    do od <- draft3 origin default;
    do td <- draft3 base default;
    if od <? td then
      let base1 := match lget origin (lit "alt") with
                   | Some _ => set_attrs base (dset streq (lattrs base) (lit "alt") alt)
                   | None => base
                   end in
      match lalts base with
      | None => Ok base1
      | Some oalt =>
          let oalt := match lget origin (lit "alt") with
                      | Some a => if dmem streq oalt a then ddel streq oalt a else oalt
                      | None => oalt
                      end in
          Ok (set_alts base1 (Some (dset streq oalt alt (set_alts base1 None))))
      end
    else
      match lalts base with
      | None => Ok (set_alts base (Some [(alt, origin)]))
      | Some alts =>
          match dget streq alts alt with
          | Some v => do vd <- draft3 v default;
                      if vd <? od then Ok base else Ok (set_alts base (Some (dset streq alts alt origin)))
          | None => Ok (set_alts base (Some (dset streq alts alt origin)))
          end
      end.

  (** lines 199-208 and 216-226: the target gets the content of [src]. The test on the draft
      compares a number to a string and is always true. *)
  Definition take_content (target src : lnode) : res lnode :=
    do g <- draft3 src None;
    let attrs := ddel streq (lattrs target) (lit "alt") in
    let attrs := dset streq attrs (lit "draft") (nth g alldrafts []) in
    Ok (set_hash (set_text (set_attrs (set_kids target (lkids src)) attrs) (ltext src)) (lch src)).

  (** lines 238-271 (_merge_alts): one name. The answer is the new entry, if there is one. *)
  Definition merge_alt (balt oalt talt : list (pystr * lnode)) (k : pystr) : res (option lnode) :=
    let b := dget streq balt k in
    let o := dget streq oalt k in
    let t := dget streq talt k in
    match b, o, t with
    | None, None, _ => Ok None
    | None, Some o, None => Ok (Some o)
    | None, Some o, Some t =>
        do dt <- draft3 t default;
        (* line 249: get_draft is given the dictionary *)
        do do_ <- match dget streq oalt (lit "draft") with
                  | Some _ => Ok 5
                  | None => get_draft dd None default
                  end;
        if do_ <? dt then Ok (Some o) else Ok None
    | Some b, None, None => Ok (Some b)
    | Some b, None, Some t =>
        do dt <- draft3 t default;
        do db <- draft3 b None;
        if db <? dt then Ok (Some b) else Ok None
    | Some b, Some o, None =>
        do do_ <- draft3 o default;
        do db <- draft3 b None;
        if db <? do_ then Ok (Some b) else Ok (Some o)
    | Some b, Some o, Some t =>
        do dt <- draft3 t default;
        do do_ <- draft3 o default;
        if do_ <? dt then Ok (Some o)
        else
          do db <- draft3 b None;
          if db <? dt then Ok (Some b)
          else if negb (Z.eqb (lch o) (lch b)) then Ok (Some o)
          else Ok None
    end.
  Definition alts_or_none (n : option lnode) : list (pystr * lnode) :=
    match n with
    | Some n => match lalts n with Some a => a | None => [] end
    | None => []
    end.
  (** names in order, each once *)
  Fixpoint uniq (seen l : list pystr) : list pystr :=
    match l with
    | [] => []
    | k :: l' => if memstr k seen then uniq seen l' else k :: uniq (k :: seen) l'
    end.
  Definition merge_alts (base other : option lnode) (target : lnode) : res (lnode * bool) :=
    match other with
    | None => Ok (target, false)
    | Some o =>
        match lalts o with
        | None => Ok (target, false)
        | Some oalt =>
            match lalts target with
            | None => Ok (set_alts target (Some oalt), match oalt with [] => false | _ => true end)
            | Some talt =>
                let balt := alts_or_none base in
                fold_res
                  (fun k (st : lnode * bool) =>
                     let '(target, changed) := st in
                     let talt := alts_or_none (Some target) in
                     do r <- merge_alt balt oalt talt k;
                     match r with
                     | None => Ok (target, changed)
                     | Some v => Ok (set_alts target (Some (dset streq talt k v)), true)
                     end)
                  (uniq [] (dkeys balt ++ dkeys talt ++ dkeys oalt)) (target, false)
            end
        end
    end.

  (** lines 189-236 (_merge_with_alts). An element has no attribute default_draft. *)
  Definition merge_with_alts (base other : option lnode) (target : lnode) : res (lnode * bool) :=
    match default with
    | None => Raise AttributeError
    | Some _ =>
        do r <-
          match base with
          | Some b =>
              if (negb (Z.eqb (lch b) (lch target)) && truthy (ltext b))%bool then
                do db <- draft3 b None;
                do dt <- draft3 target default;
                if db <? dt then
                  do b' <- add_alt b target;
                  do t' <- take_content target b';
                  Ok (Some b', t', true)
                else Ok (base, target, false)
              else Ok (base, target, false)
          | None =>
              match other with
              | Some o =>
                  if (negb (Z.eqb (lch o) (lch target)) && truthy (ltext target))%bool then
                    do dt <- draft3 target default;
                    do do_ <- draft3 o default;
                    if dt <? do_ then Ok (base, target, true)
                    else do t' <- take_content target o; Ok (base, t', true)
                  else Ok (base, target, false)
              | None => Ok (base, target, false)
              end
          end;
        let '(base, target, res) := r in
        do r2 <- merge_alts base other target;
        Ok (fst r2, (res || snd r2)%bool)
    end.

  (** lines 288-309: what becomes of a child: itself or not, what is appended, and the change
      reported. [rec] merges the child with its counterparts. *)
  Definition child_step (rec : option lnode -> option lnode -> res (lnode * bool)) (t : lnode)
      (mm : aligned) : res (list lnode * list lnode * bool) :=
    let '(mo, mb) := mm in
    let stay (r : lnode * bool) : list lnode * list lnode * bool := ([fst r], [], snd r) in
    match mb with
    | None =>
        match mo with
        | Some o =>
            if (useDrafts && negb (Z.eqb (lch o) (lch t)))%bool
            then do r <- merge_with_alts None mo t; Ok ([fst r], [], false)
            else Ok ([t], [], false)
        | None => Ok ([t], [], false)
        end
    | Some b =>
        match mo with
        | Some o =>
            if negb (Z.eqb (lch o) (lch t)) then
              if Z.eqb (lch b) (lch t) then
                if useDrafts then
                  do r <- merge_with_alts mb mo t;
                  if snd r then Ok ([fst r], [], false) else Ok ([], [o], true)
                else Ok ([], [o], true)
              else if negb (Z.eqb (lch b) (lch o)) then
                do r <- rec mo mb; Ok (stay r)
              else if useDrafts then do r <- merge_with_alts mb mo t; Ok (stay r)
              else Ok ([t], [], false)
            else if useDrafts then do r <- merge_with_alts mb mo t; Ok (stay r)
            else Ok ([t], [], false)
        | None =>
            if (Z.eqb (lch b) (lch t) || winner_other)%bool then Ok ([], [], true)
            else if useDrafts then do r <- merge_with_alts mb mo t; Ok (stay r)
            else Ok ([t], [], false)
        end
    end.

  (** lines 326-343: the attributes. [base] None is an error as soon as both have an attribute. *)
  Fixpoint own_attrs (keys : list pystr) (oattrs : list (pystr * pystr))
      (battrs : option (list (pystr * pystr))) (attrs : list (pystr * pystr)) (changed : bool)
    : res (list (pystr * pystr) * bool) :=
    match keys with
    | [] => Ok (attrs, changed)
    | k :: keys' =>
        match dget streq oattrs k with
        | Some ov =>
            match battrs with
            | None => Raise AttributeError
            | Some ba =>
                let tv := dget streq attrs k in
                if (match dget streq ba k with Some bv => opteq (Some bv) tv | None => false end
                    && negb (opteq tv (Some ov)))%bool
                then own_attrs keys' oattrs battrs (dset streq attrs k ov) true
                else own_attrs keys' oattrs battrs attrs (changed || negb (opteq tv (Some ov)))
            end
        | None =>
            match battrs with
            | Some ba =>
                if dmem streq ba k then own_attrs keys' oattrs battrs (ddel streq attrs k) true
                else own_attrs keys' oattrs battrs attrs changed
            | None => own_attrs keys' oattrs battrs attrs changed
            end
        end
    end.
  Definition other_attrs (old : list pystr) (oattrs : list (pystr * pystr))
      (battrs : option (list (pystr * pystr))) (attrs : list (pystr * pystr)) (changed : bool)
    : list (pystr * pystr) * bool :=
    fold_left
      (fun (st : list (pystr * pystr) * bool) (kv : pystr * pystr) =>
         if memstr (fst kv) old then st
         else if match battrs with
                 | None => true
                 | Some ba => negb (opteq (dget streq ba (fst kv)) (Some (snd kv)))
                 end
         then (dset streq (fst st) (fst kv) (snd kv), true)
         else st)
      oattrs (attrs, changed).
  Definition merge_attrs (this : lnode) (other base : option lnode) (changed : bool)
    : res (lnode * bool) :=
    let oattrs := match other with Some o => lattrs o | None => [] end in
    let battrs := option_map lattrs base in
    do r <- own_attrs (dkeys (lattrs this)) oattrs battrs (lattrs this) changed;
    let '(attrs, changed) := other_attrs (dkeys (lattrs this)) oattrs battrs (fst r) (snd r) in
    Ok (set_attrs this attrs, changed).

  (** lines 310-325: the text. The answer says whether the attributes are still to be merged. *)
  Definition merge_text (this : lnode) (other base : option lnode) (changed : bool)
    : res (lnode * bool * bool) :=
    let with_alts this changed go :=
      if useDrafts then
        do r <- merge_with_alts base other this; Ok (fst r, (changed || snd r)%bool, go)
      else Ok (this, changed, go) in
    match base with
    | Some b =>
        if opteq (ltext this) (ltext b) then
          match other with
          | Some o =>
              with_alts (set_hash (set_text this (ltext o)) (lch o))
                (changed || negb (opteq (ltext this) (ltext o)))%bool true
          | None =>
              match ltext this with
              | Some _ =>
                  (* the content hash becomes None: comparing a hash to it is an error *)
                  if useDrafts then Raise AttributeError
                  else Ok (set_hash (set_text this None) 0%Z, true, true)
              | None => with_alts this changed true
              end
          end
        else
          match other with
          | Some o => if opteq (ltext o) (ltext b) then with_alts this changed true
                      else with_alts this changed (negb useDrafts)
          | None => with_alts this changed true
          end
    | None => with_alts this changed true
    end.

  (** lines 279-344 *)
  Fixpoint merge3 (this : lnode) (other base : option lnode) {struct this} : res (lnode * bool) :=
    match this with
    | LNode _ _ _ _ _ _ kids =>
        let '(ms, new) := align kids other base in
        do rs <- zip_res (fun t mm => child_step (merge3 t) t mm) kids ms;
        do rn <- zip_res (fun e mb => child_step (fun _ _ => Raise AttributeError (* not reached *)) e (None, mb))
                   (map fst new) (map snd new);
        let all := rs ++ rn in
        let kids' := flat_map (fun r : list lnode * list lnode * bool => fst (fst r)) all
                     ++ flat_map (fun r : list lnode * list lnode * bool => snd (fst r)) all in
        let changed := existsb (fun r : list lnode * list lnode * bool => snd r) all in
        do r <- merge_text (set_kids this kids') other base changed;
        let '(this, changed, go) := r in
        if go then merge_attrs this other base changed else Ok (this, changed)
    end.
End Merge3.

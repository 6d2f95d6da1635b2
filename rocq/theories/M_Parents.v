(** Model of [find_parents], lib/sldr/utils.py 32-209: looking for the parent of a language
    tag by shortening it. The package langtag is a parameter: [lookup tag matchRegions] gives
    a tag set or (as "") none; a tag set has a printed form, may have a script, a region, a
    tag, tags and variants (an attribute that is absent is [None]), and may have an SLDR file.
    [isfile tag] says whether the file of a tag is found on the disk. The file name and the
    parsed language tag are given by [this_file] and [ltstr], the printed form of the tag. *)
From Coq Require Import String.
From Verif Require Import Py.
Local Open Scope list_scope.
Local Open Scope nat_scope.

(** [s.rfind(p)] for a pattern that is not empty *)
Fixpoint rfind (p s : pystr) : option nat :=
  match s with
  | [] => None
  | _ :: s' => match rfind p s' with
               | Some i => Some (S i)
               | None => if startswith p s then Some 0 else None
               end
  end.
(** [s.replace("_", "-")] *)
Definition dash (s : pystr) : pystr := map (fun c => if N.eqb c 95 then 45%N else c) s.
(** [s.count('-')] *)
Definition hyphens (s : pystr) : nat := count_occ N.eq_dec s 45%N.

(** utils.py:91-96 *)
Definition remove_private (s : pystr) : pystr :=
  match rfind (lit "-x-") s with
  | Some r => if 0 <? r then firstn r s else s
  | None => s
  end.
(** utils.py:98-108 *)
Definition trim_tag (s : pystr) : pystr * bool :=
  let t := match rfind (lit "-") s with
           | Some r => if 0 <? r then firstn r s else s
           | None => s
           end in
  (t, 0 <? hyphens t).

Section Parents.
  Context {T : Type}.
  Variables (lookup : pystr -> bool -> option T) (teq : T -> T -> bool) (tstr : T -> pystr).
  Variables (script region ttag : T -> option pystr) (ttags tvariants : T -> option (list pystr)).
  Variables (sldr : T -> bool) (isfile : pystr -> bool).
  Variables (this_file : pystr) (to_root needs_sldr match_script match_region : bool).

  (** [==] of two answers of [lookup] *)
  Definition oeq (a b : option T) : bool :=
    match a, b with Some x, Some y => teq x y | None, None => true | _, _ => false end.
  (** [str(tagset)] *)
  Definition ostr (a : option T) : pystr := match a with Some t => tstr t | None => [] end.
  (** utils.py:56-57 *)
  Definition has_sldr (a : option T) : bool := match a with Some t => sldr t | None => false end.

  (** utils.py:119-128: the loop over the tags *)
  Fixpoint other_file (tags : list pystr) : res bool :=
    match tags with
    | [] => Ok false
    | m :: tags' =>
        if streq m this_file then other_file tags'
        else match m with
             | [] => Raise IndexError
             | _ :: _ => if isfile m then Ok true else other_file tags'
             end
    end.
  (** utils.py:110-130 *)
  Definition mintag_file (prev : option T) : res bool :=
    let tag := match prev with
               | Some t => match ttag t with Some s => s | None => lit "None" end
               | None => lit "None"
               end in
    if streq tag this_file then Ok false
    else match match prev with Some t => ttags t | None => None end with
         | None => Raise TypeError
         | Some tags => other_file (tag :: tags)
         end.

  (** an attribute of two tag sets compared; no attribute raises *)
  Definition same_attr (f : T -> option pystr) (a b : option T) : res bool :=
    match a, b with
    | Some x, Some y => match f x, f y with Some u, Some v => Ok (streq u v) | _, _ => Raise AttributeError end
    | _, _ => Raise AttributeError
    end.
  (** utils.py:157,167,177: do the attributes asked for agree *)
  Definition agrees (cur root : option T) : res bool :=
    if (match_region && negb match_script)%bool then same_attr region cur root
    else if (match_script && negb match_region)%bool then same_attr script cur root
    else if (match_region && match_script)%bool then
      do s <- same_attr script cur root; if s then same_attr region cur root else Ok false
    else Ok false.

  (** utils.py:132-191. The branches that do not return all go on with the loop. [fuel]
      bounds the rounds; the last one only finds that the loop ends. *)
  Fixpoint parent_loop (fuel : nat) (rootset : option T) (trimmable ran_private redundant : bool)
      (root_tag temp : pystr) (path : list pystr) : res (pystr * bool * list pystr) :=
    match fuel with
    | O => Raise OutOfFuel
    | S f =>
        if negb trimmable then Ok (root_tag, redundant, path)
        else
          let prev := lookup (dash temp) false in
          let go trim trimmable' redundant' :=
            let cur := lookup (dash trim) false in
            if (oeq cur rootset || oeq cur prev)%bool
            then parent_loop f rootset trimmable' true redundant' root_tag trim path
            else
              do m <- agrees cur rootset;
              if (m && (negb needs_sldr || has_sldr cur))%bool then
                if to_root then parent_loop f rootset trimmable' true redundant' trim trim (path ++ [trim])
                else Ok (trim, redundant', path ++ [trim])
              else parent_loop f rootset trimmable' true redundant' root_tag trim path in
          if ran_private then
            do red <- mintag_file prev;
            if (red && negb to_root)%bool then Ok (root_tag, red, path)
            else let (trim, trimmable') := trim_tag temp in go trim trimmable' red
          else go (remove_private temp) trimmable false
    end.

  (** utils.py:60-80: the starting tag set, or an answer given at once *)
  Definition start_set (ltstr : pystr) : (option T) + (bool * pystr * option T * list pystr) :=
    let found t := inr (false, ostr t, t, [ostr t]) in
    let enough t := (negb needs_sldr || has_sldr t)%bool in
    match lookup (dash ltstr) true with
    | Some t => inl (Some t)
    | None =>
        match rfind (lit "-") ltstr with
        | None => inr (true, [], None, [[]])
        | Some r =>
            let variant := skipn (S r) ltstr in
            let after t :=
              if (streq variant (lit "001") && negb to_root)%bool then found t
              else match t with
                   | Some x => match tvariants x with
                               | Some vs => if (existsb (streq variant) vs && negb to_root && enough t)%bool
                                            then found t else inl t
                               | None => inl t
                               end
                   | None => inl t
                   end in
            match lookup (dash (firstn r ltstr)) true with
            | Some t => after (Some t)
            | None =>
                (* [str(lt)[:r]] with r = -1 drops the last character *)
                let short := match rfind (lit "-x-") ltstr with Some r2 => firstn r2 ltstr | None => removelast ltstr end in
                let t := lookup (dash short) true in
                if (negb to_root && enough t)%bool then found t else after t
            end
        end
    end.

  (** utils.py:50-209 *)
  Definition find_parents (fuel : nat) (ltstr : pystr) : res (bool * pystr * option T * list pystr) :=
    match start_set ltstr with
    | inr r => Ok r
    | inl tagset =>
        let root_tag := ostr tagset in
        do (root, redundant, path) <- parent_loop fuel tagset true false false root_tag root_tag [root_tag];
        let rootset := lookup (dash root) false in
        Ok ((oeq rootset tagset && negb redundant)%bool, root, rootset, path)
    end.
End Parents.

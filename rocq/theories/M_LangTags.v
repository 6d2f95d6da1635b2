(** Model of /repo/lib/sldr/langtags_full.py: [LangTag] and the registry operations of
    [LangTags].
    [str.lower], [str.upper] and [str.title] are Python's; they are parameters here, so
    that no theorem depends on a particular case mapping. *)
From Verif Require Import Py.

Definition HY : N := 45%N.   (* '-' *)
Definition US : N := 95%N.   (* '_' *)

(** langtags_full.py:42-68. The attributes [base], [hidevariants] and [hideextensions] are
    left out: [__init__] sets them to [], None and None and nothing in /repo assigns them
    afterwards. [desc] is absent in Python until set; absent is [] here, which is how every
    reader ([getattr(x, 'desc', [])]) treats it. *)
Record tag := mkTag {
  t_lang : option pystr;
  t_script : option pystr;
  t_region : option pystr;
  t_vars : option (list pystr);
  t_exts : option (list (pystr * list pystr));
  t_hidescript : bool;
  t_hideregion : bool;
  t_hideboth : bool;
  t_desc : list pystr
}.

Definition set_lang t v := mkTag v (t_script t) (t_region t) (t_vars t) (t_exts t)
  (t_hidescript t) (t_hideregion t) (t_hideboth t) (t_desc t).
Definition set_script t v := mkTag (t_lang t) v (t_region t) (t_vars t) (t_exts t)
  (t_hidescript t) (t_hideregion t) (t_hideboth t) (t_desc t).
Definition set_region t v := mkTag (t_lang t) (t_script t) v (t_vars t) (t_exts t)
  (t_hidescript t) (t_hideregion t) (t_hideboth t) (t_desc t).
Definition set_vars t v := mkTag (t_lang t) (t_script t) (t_region t) v (t_exts t)
  (t_hidescript t) (t_hideregion t) (t_hideboth t) (t_desc t).
Definition set_exts t v := mkTag (t_lang t) (t_script t) (t_region t) (t_vars t) v
  (t_hidescript t) (t_hideregion t) (t_hideboth t) (t_desc t).
Definition set_hidescript t v := mkTag (t_lang t) (t_script t) (t_region t) (t_vars t) (t_exts t)
  v (t_hideregion t) (t_hideboth t) (t_desc t).
Definition set_hideregion t v := mkTag (t_lang t) (t_script t) (t_region t) (t_vars t) (t_exts t)
  (t_hidescript t) v (t_hideboth t) (t_desc t).
Definition set_hideboth t v := mkTag (t_lang t) (t_script t) (t_region t) (t_vars t) (t_exts t)
  (t_hidescript t) (t_hideregion t) v (t_desc t).
Definition set_desc t v := mkTag (t_lang t) (t_script t) (t_region t) (t_vars t) (t_exts t)
  (t_hidescript t) (t_hideregion t) (t_hideboth t) v.

(** [x is None] *)
Definition isNone {A} (o : option A) : bool := match o with None => true | _ => false end.
(** [==] on an optional string *)
Definition ostreq (a b : option pystr) : bool :=
  match a, b with
  | None, None => true
  | Some x, Some y => streq x y
  | _, _ => false
  end.

(** langtags_full.py:55-68 __init__ without a tag string *)
Definition newtag lang script region vars exts : tag :=
  mkTag lang script region vars exts false false (isNone script && isNone region) [].

Definition olist (o : option pystr) : list pystr := match o with Some x => [x] | None => [] end.
Definition olists (o : option (list pystr)) : list pystr := match o with Some x => x | None => [] end.

(** langtags_full.py:77-83 _extensions: the names sorted, each followed by its sorted members *)
Definition ext_list (t : tag) : list pystr :=
  match t_exts t with
  | None => []
  | Some d =>
      flat_map (fun ns => ns :: isort strleb (match dget streq d ns with Some l => l | None => [] end))
               (isort strleb (dkeys d))
  end.

(** langtags_full.py:85-92 __str__ *)
Definition str_tags (t : tag) : list pystr :=
  olist (t_lang t)
  ++ (if t_hidescript t then [] else olist (t_script t))
  ++ (if (negb (t_hideregion t) || (negb (t_hideboth t) && t_hidescript t))%bool
      then olist (t_region t) else [])
  ++ olists (t_vars t) ++ ext_list t.
Definition tag_str (t : tag) : pystr := join [HY] (str_tags t).

(** langtags_full.py:94-99 __repr__ *)
Definition repr_tags (t : tag) : list pystr :=
  olist (t_lang t) ++ olist (t_script t) ++ olist (t_region t) ++ olists (t_vars t) ++ ext_list t.
Definition tag_repr (t : tag) : pystr := join [HY] (repr_tags t).

(** langtags_full.py:101-110 __len__ *)
Definition tag_len (t : tag) : nat :=
  1 + (if isNone (t_script t) then 0 else 1) + (if isNone (t_region t) then 0 else 1)
  + (match t_vars t with Some l => length l | None => 0 end)
  + (match t_exts t with
     | Some d => fold_right plus 0 (map (fun v => 1 + length v) (dvalues d))
     | None => 0
     end).

Section Case.
Variables lower upper title : pystr -> pystr.

(** langtags_full.py:121 [x.replace('_', '-').split('-')] *)
Definition bits_of (x : pystr) : list pystr :=
  split_on HY (map (fun c => if N.eqb c US then HY else c) x).

(** [1 < len(b) < 4] *)
Definition len23 (b : pystr) : bool := (Nat.ltb 1 (length b) && Nat.ltb (length b) 4)%bool.

(** langtags_full.py:131-133: the run of two and three letter subtags after "x" *)
Fixpoint take_priv (acc : pystr) (bits : list pystr) : pystr * list pystr :=
  match bits with
  | b :: r => if len23 b then take_priv (acc ++ b ++ [HY]) r else (acc, bits)
  | [] => (acc, [])
  end.

(** langtags_full.py:123-134: language, or private use language *)
Definition parse_lang (t : tag) (bits : list pystr) : tag * list pystr :=
  match bits with
  | [] => (t, bits)
  | b :: r =>
      if len23 b then (set_hideboth (set_lang t (Some (lower b))) true, r)
      else if (streq b [120%N] && negb (match r with [] => true | _ => false end))%bool then
        let '(l, r') := take_priv [120%N; HY] r in
        (set_lang t (Some (removelast l)), r')
      else (t, bits)
  end.

(** langtags_full.py:135-142: script or extended language. The early return of line 135 is
    the [[]] case: with no bits left no later stage changes the tag. *)
Definition parse_script (t : tag) (bits : list pystr) : res (tag * list pystr) :=
  match bits with
  | [] => Ok (t, [])
  | b :: r =>
      if Nat.eqb (length b) 4 then
        Ok (set_hideboth (set_script t (Some (title b))) false, r)
      else if (Nat.eqb (length b) 3 &&
               negb (match b with c :: _ => is_digit c | [] => false end))%bool then
        match t_lang t with
        | Some l => Ok (set_lang t (Some (l ++ [HY] ++ b)), r)
        | None => Raise TypeError
        end
      else Ok (t, bits)
  end.

(** langtags_full.py:143-147: region *)
Definition parse_region (t : tag) (bits : list pystr) : tag * list pystr :=
  match bits with
  | [] => (t, [])
  | b :: r =>
      if len23 b then (set_hideboth (set_region t (Some (upper b))) false, r) else (t, bits)
  end.

(** langtags_full.py:148-158: a script found after what was taken for the region *)
Definition parse_late_script (t : tag) (bits : list pystr) : res (tag * list pystr) :=
  match bits with
  | [] => Ok (t, [])
  | b :: r =>
      if (Nat.eqb (length b) 4 && isNone (t_script t))%bool then
        match t_lang t, t_region t with
        | Some l, Some rg =>
            let t1 := set_hideboth (set_region (set_script (set_lang t (Some (l ++ [HY] ++ rg)))
                        (Some b)) None) false in
            match r with
            | b2 :: r2 => if len23 b2 then Ok (set_region t1 (Some b2), r2) else Ok (t1, r)
            | [] => Ok (t1, [])
            end
        | _, _ => Raise TypeError
        end
      else Ok (t, bits)
  end.

(** langtags_full.py:159-170: variants and extensions; state is (ns, extensions, variants) *)
Notation extst := (pystr * list (pystr * list pystr) * list pystr)%type.
Definition ext_step (st : extst) (b : pystr) : extst :=
  let '(ns, ex, vs) := st in
  if Nat.eqb (length b) 1 then (lower b, dset streq ex (lower b) [], vs)
  else match ns with
       | [] => (ns, ex, vs ++ [lower b])
       | _ => (ns, dset streq ex ns
                     ((match dget streq ex ns with Some l => l | None => [] end) ++ [lower b]), vs)
       end.
(** langtags_full.py:159-172 *)
Definition parse_rest (t : tag) (bits : list pystr) : tag :=
  let '(_, ex, vs) := fold_left ext_step bits ([], [], []) in
  let t1 := match vs with [] => t | _ => set_vars t (Some vs) end in
  match ex with [] => t1 | _ => set_exts t1 (Some ex) end.

(** langtags_full.py:118-172 parse *)
Definition parse (t : tag) (x : pystr) : res tag :=
  let '(t, bits) := parse_lang t (bits_of x) in
  do (t, bits) <- parse_script t bits;
  let '(t, bits) := parse_region t bits in
  do (t, bits) <- parse_late_script t bits;
  Ok (parse_rest t bits).

(** langtags_full.py:55-68 LangTag(tag=x) *)
Definition LangTag (x : pystr) : res tag := parse (newtag None None None None None) x.

End Case.

(** langtags_full.py:195-200: the extensions of [tag] that [self] lacks *)
Definition merge_exts (d : list (pystr * list pystr)) (e : list (pystr * list pystr))
  : list (pystr * list pystr) :=
  fold_left (fun d kv => if dmem streq d (fst kv) then d else dset streq d (fst kv) (snd kv)) e d.

(** langtags_full.py:193-204: the end of merge_equivalent, once script and region agree *)
Definition merge_rest (s3 tg : tag) : tag :=
  let s4 :=
    if (ostreq (t_region s3) (t_region tg) && negb (t_hideregion s3))%bool
    then set_hideregion s3 (t_hideregion tg) else s3 in
  let s5 := if negb (t_hideboth s4) then set_hideboth s4 (t_hideboth tg) else s4 in
  let s6 := match t_vars tg, t_vars s5 with
            | Some v, None => set_vars s5 (Some v)
            | _, _ => s5
            end in
  let s7 := match t_exts tg with
            | None => s6
            | Some e =>
                set_exts s6 (Some (merge_exts
                  (match t_exts s6 with Some d => d | None => [] end) e))
            end in
  match t_desc s7 with
  | [] => match t_desc tg with [] => s7 | ds => set_desc s7 ds end
  | _ => s7
  end.

(** langtags_full.py:174-205 merge_equivalent: the tag after the call, and the result.
    The attribute updates are done in the order of the code. When self and tag are one object
    the reads of tag after a write to self see the written value; none of the fields read
    that late (region, hideregion, hideboth, variants, extensions, desc) has then been
    changed, so two equal values give the same result as one object. *)
Definition merge_equivalent (self tg : tag) : tag * bool :=
  let oldscript := t_script self in
  let r1 :=
    if (isNone (t_script self) && negb (ostreq (t_script self) (t_script tg)))%bool
    then Some (set_script self (t_script tg))
    else if (negb (isNone (t_script tg)) && negb (ostreq (t_script self) (t_script tg)))%bool
    then None
    else Some self in
  match r1 with
  | None => (self, false)
  | Some s1 =>
      let s2 :=
        if (ostreq (t_script s1) (t_script tg) && negb (t_hidescript s1))%bool
        then set_hidescript s1 (t_hidescript tg)
        else if isNone (t_script tg) then set_hidescript s1 true
        else s1 in
      if (isNone (t_region s2) && negb (ostreq (t_region s2) (t_region tg)))%bool
      then (merge_rest (set_region s2 (t_region tg)) tg, true)
      else if (negb (isNone (t_region tg)) && negb (ostreq (t_region tg) (t_region s2)))%bool
      then (set_script s2 oldscript, false)
      else if isNone (t_region tg) then (merge_rest (set_hidescript s2 true) tg, true)
      else (merge_rest s2 tg, true)
  end.

(** A Python set of strings: its elements without repetition. *)
Definition strdedup (l : list pystr) : list pystr :=
  fold_left (fun acc x => if existsb (streq x) acc then acc else acc ++ [x]) l [].
Definition pair_eqb (a b : pystr * pystr) : bool :=
  (streq (fst a) (fst b) && streq (snd a) (snd b))%bool.
Definition pairdedup (l : list (pystr * pystr)) : list (pystr * pystr) :=
  fold_left (fun acc x => if existsb (pair_eqb x) acc then acc else acc ++ [x]) l [].

(** langtags_full.py:208-217: the script and region choices *)
Definition script_choices (t : tag) : list (option pystr) :=
  (if (t_hidescript t || isNone (t_script t))%bool then [None] else [])
  ++ match t_script t with Some s => [Some s] | None => [] end.
Definition region_choices (t : tag) : list (option pystr) :=
  (if (t_hideregion t || isNone (t_region t))%bool then [None] else [])
  ++ match t_region t with Some s => [Some s] | None => [] end.
Definition sr_choices (t : tag) : list (option pystr * option pystr) :=
  filter (fun sr => (negb (isNone (fst sr)) || negb (isNone (snd sr)) || t_hideboth t)%bool)
         (list_prod (script_choices t) (region_choices t)).

(** langtags_full.py:221-231: [hidevariants] is None, so nothing is removed *)
Definition var_form (t : tag) : option pystr :=
  match t_vars t with
  | Some vs => Some (join [HY] (isort strleb (strdedup vs)))
  | None => None
  end.

(** langtags_full.py:237-241: regroup (name, member) pairs by name *)
Definition regroup (l : list (pystr * pystr)) : list (pystr * list pystr) :=
  fold_left (fun d kv => dset streq d (fst kv)
     ((match dget streq d (fst kv) with Some x => x | None => [] end) ++ [snd kv])) l [].
(** langtags_full.py:232-243: [hideextensions] is None. The iteration order of the set does
    not show: members and names are sorted. *)
Definition ext_form (t : tag) : option pystr :=
  match t_exts t with
  | Some d =>
      let short := regroup (pairdedup (flat_map (fun kv => map (fun x => (fst kv, x)) (snd kv)) d)) in
      Some (join [HY] (map (fun kv => join [HY] (fst kv :: isort strleb (snd kv)))
                           (isort (fun a b => strleb (fst a) (fst b)) short)))
  | None => None
  end.

Definition nonempty_opts (l : list (option pystr)) : list pystr :=
  flat_map (fun o => match o with Some (c :: r) => [c :: r] | _ => [] end) l.

(** langtags_full.py:207-258 allforms, with [self.base] empty *)
Definition allforms (t : tag) : list pystr :=
  map (fun sr => join [HY] (nonempty_opts [t_lang t; fst sr; snd sr; var_form t; ext_form t]))
      (sr_choices t).

(** langtags_full.py:260-266 matches; [==] on the variants list, and on dicts (same keys, same
    values, any order) *)
Definition ovars_eqb (a b : option (list pystr)) : bool :=
  match a, b with
  | None, None => true
  | Some x, Some y => match lcmp strcmp x y with Eq => true | _ => false end
  | _, _ => false
  end.
Definition dict_eqb (a b : list (pystr * list pystr)) : bool :=
  (Nat.eqb (length a) (length b) &&
   forallb (fun kv => match dget streq b (fst kv) with
                      | Some v => ovars_eqb (Some (snd kv)) (Some v)
                      | None => false
                      end) a)%bool.
Definition oexts_eqb (a b : option (list (pystr * list pystr))) : bool :=
  match a, b with
  | None, None => true
  | Some x, Some y => dict_eqb x y
  | _, _ => false
  end.
Definition matches (self other : tag) : bool :=
  if negb (ostreq (t_lang self) (t_lang other)) then false
  else if (negb (ostreq (t_script self) (t_script other))
           && negb (t_hidescript self && isNone (t_script other)))%bool then false
  else if (negb (ostreq (t_region self) (t_region other))
           && negb (t_hideregion self && isNone (t_region other)))%bool then false
  else if negb (ovars_eqb (t_vars self) (t_vars other)) then false
  else if negb (oexts_eqb (t_exts self) (t_exts other)) then false
  else true.

(** langtags_full.py:268-304 analyse, against a registry given as a dictionary of tags.
    The only object changed is [self], which is returned when it is not found. [None] is
    running out of fuel. *)
Definition ZZ : pystr := [90%N; 90%N].
Definition Latn : pystr := lit "Latn".
Definition fon_variants : list pystr := [lit "fonipa"; lit "fonapa"; lit "fonupa"].
(** langtags_full.py:297-303 *)
Definition oddities (t : tag) : tag :=
  match t_vars t with
  | None => t
  | Some vs =>
      if (negb (t_hidescript t) && ostreq (t_script t) (Some Latn)
          && existsb (fun v => existsb (streq v) vs) fon_variants)%bool
      then set_hidescript t true else t
  end.
Fixpoint analyse (fuel : nat) (all : list (pystr * tag)) (self : tag) : option tag :=
  match fuel with
  | O => None
  | S fuel' =>
      match dget streq all (tag_str self) with
      | Some t => Some t
      | None =>
          let script_part (self : tag) : option tag :=
            match t_script self with
            | None => Some (oddities self)
            | Some _ =>
                match analyse fuel' all
                        (newtag (t_lang self) None (t_region self) (t_vars self) (t_exts self)) with
                | None => None
                | Some test =>
                    if dmem streq all (tag_str test)
                    then Some (oddities (fst (merge_equivalent self test)))
                    else if (negb (isNone (t_vars self)) || negb (isNone (t_exts self)))%bool then
                      match analyse fuel' all (newtag (t_lang self) (t_script self) None None None) with
                      | None => None
                      | Some test2 => Some (oddities (fst (merge_equivalent self test2)))
                      end
                    else Some (oddities self)
                end
            end in
          match t_region self with
          | None => script_part self
          | Some r =>
              if streq r ZZ then script_part (set_hideregion (set_region self None) false)
              else
                match analyse fuel' all
                        (newtag (t_lang self) (t_script self) None (t_vars self) (t_exts self)) with
                | None => None
                | Some test =>
                    if dmem streq all (tag_str test)
                    then Some (fst (merge_equivalent self test))
                    else if (negb (isNone (t_vars self)) || negb (isNone (t_exts self)))%bool then
                      match analyse fuel' all (newtag (t_lang self) None (t_region self) None None) with
                      | None => None
                      | Some test2 => Some (fst (merge_equivalent self test2))
                      end
                    else Some self
                end
          end
      end
  end.

(** The registry: [LangTags] is a dict from strings to tag objects. Objects are shared
    between keys and changed in place, so they are named by numbers and [r_obj] gives their
    present state. *)
Record registry := mkReg { r_map : list (pystr * nat); r_obj : nat -> tag }.

Definition upd (h : nat -> tag) (i : nat) (t : tag) : nat -> tag :=
  fun j => if Nat.eqb j i then t else h j.

(** langtags_full.py:465-478 add. [order] is the iteration order of a set of strings, which
    Python leaves open. Returns the registry and the returned object. *)
Definition add (order : list pystr -> list pystr) (r : registry) (tg : nat) : registry * nat :=
  let allf := order (strdedup (allforms (r_obj r tg))) in
  let merge := filter (fun a => dmem streq (r_map r) a) allf in
  let diff := filter (fun a => negb (dmem streq (r_map r) a)) allf in
  match rev (isort (fun a b => Nat.leb (length a) (length b)) merge) with
  | [] => (mkReg (fold_left (fun m a => dset streq m a tg) diff (r_map r)) (r_obj r), tg)
  | k :: _ =>
      match dget streq (r_map r) k with
      | None => (r, tg)       (* not reached: k was just found in the registry *)
      | Some v =>
          let '(v', ok) := merge_equivalent (r_obj r v) (r_obj r tg) in
          let obj' := upd (r_obj r) v v' in
          if ok then (mkReg (fold_left (fun m a => dset streq m a v) diff (r_map r)) obj', v)
          else (mkReg (fold_left (fun m a => dset streq m a tg) (diff ++ merge) (r_map r)) obj', tg)
      end
  end.

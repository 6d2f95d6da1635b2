(** Model of how the class data of Ldml are read: ReadDTD (lib/sldr/ldml.py 335-398) from the
    declarations of sil.dtd, as expat reports them, and ReadMetadata (ldml.py 282-317) from the
    elements of supplementalMetadata.xml.
    Simplifications: parsing is done by expat, so a DTD is its list of declarations and comments,
    and an enumerated type has the text expat gives, "(a|b)"; sets are lists without repetition;
    cls.variables is left out, as nothing uses it. *)
From Coq Require Import String.
From Verif Require Import Py M_LdmlBase.
From Verif Require M_ZoneTab.
Local Open Scope list_scope.
Local Open Scope nat_scope.

(** the part of a content model that is looked at: a name or a group (ldml.py:371-374) *)
Inductive cmodel := CM (name : option pystr) (kids : list cmodel).

Inductive decl :=
| ElementDecl (name : pystr) (kids : list cmodel)          (* kids is model[3] *)
| AttlistDecl (elname attname xmltype : pystr)
| CommentDecl (text : pystr).

(** set.add *)
Definition sadd (x : pystr) (s : list pystr) : list pystr := if memstr x s then s else s ++ [x].
(** d.setdefault(k, set()).add(x) *)
Definition key_add (d : list (pystr * list pystr)) (k x : pystr) : list (pystr * list pystr) :=
  dset streq d k (sadd x (match dget streq d k with Some s => s | None => [] end)).
(** what [d.get(k, {})] gives *)
Definition sub {A} (d : list (pystr * list (pystr * A))) (k : pystr) : list (pystr * A) :=
  match dget streq d k with Some s => s | None => [] end.

Record dstate := mkD {
  d_elord : list (pystr * list (pystr * nat));
  d_attord : list (pystr * list (pystr * nat));
  d_attcount : list (pystr * nat);
  d_attvals : list (pystr * list (pystr * list (pystr * pystr)));
  d_key : list (pystr * list pystr);
  d_maxels : nat
}.

(** _basenamespaces, ldml.py:60-62 *)
Definition basens : list (pystr * pystr) :=
  [(lit "urn://www.sil.org/ldml/0.1", lit "sil"); (lit "http://www.w3.org/XML/1998/namespace", lit "xml")].

(** ldml.py:346-354 procmodel, for one node *)
Fixpoint procnode (name : pystr) (st : list (pystr * list (pystr * nat)) * nat) (n : cmodel) :=
  let '(CM nm kids) := n in
  fold_left (procnode name) kids
    (match nm with
     | Some t => (dset streq (fst st) name (dset streq (sub (fst st) name) (reverse_localns basens t) (S (snd st))), S (snd st))
     | None => st
     end).

(** ldml.py:355-360 procattrib *)
Definition procattrib (vals : list (pystr * list (pystr * list (pystr * pystr)))) (elname attname xmltype : pystr) :=
  match xmltype with
  | 40%N :: rest =>
      if streq attname (lit "draft") then vals
      else dset streq vals elname (dset streq (sub vals elname) attname (M_ZoneTab.enum_keys (split_on 124%N (removelast rest))))
  | _ => vals
  end.

(** one declaration: ldml.py:361-385. No handler is set for comments (393-394), so they do
    nothing. *)
Definition decl_step (d : dstate) (x : decl) : res dstate :=
  match x with
  | ElementDecl nm kids =>
      let name := reverse_localns basens nm in
      let '(elord, count) := fold_left (procnode name) kids (d_elord d, 0) in
      Ok (mkD elord (dset streq (d_attord d) name []) (dset streq (d_attcount d) name 0) (d_attvals d) (d_key d)
              (Nat.max (d_maxels d) (S count)))
  | AttlistDecl el att ty =>
      let attname := reverse_localns basens att in
      let elname := reverse_localns basens el in
      match dget streq (d_attcount d) elname with
      | None => Raise KeyError
      | Some n =>
          Ok (mkD (d_elord d) (dset streq (d_attord d) elname (dset streq (sub (d_attord d) elname) attname (S n)))
                  (dset streq (d_attcount d) elname (S n)) (procattrib (d_attvals d) elname attname ty)
                  (key_add (d_key d) elname attname) (d_maxels d))
      end
  | CommentDecl _ => Ok d
  end.
Fixpoint run_decls (ds : list decl) (d : dstate) : res dstate :=
  match ds with
  | [] => Ok d
  | x :: ds' => do d' <- decl_step d x; run_decls ds' d'
  end.
(** ldml.py:336-345 and 398. keyContexts is not emptied. *)
Definition read_dtd (key0 : list (pystr * list pystr)) (ds : list decl) : res (dstate * nat) :=
  do d <- run_decls ds (mkD [] [] [] [] key0 0);
  match map snd (d_attcount d) with
  | [] => Raise ValueError
  | c :: cs => Ok (d, S (fold_left Nat.max cs c))
  end.

(** a distinguishingItems element: its attributes, split *)
Record ditem := mkItem { i_elements : option (list pystr); i_exclude : bool; i_attributes : list pystr }.
(** set.update *)
Definition supdate (s xs : list pystr) : list pystr := fold_left (fun s x => sadd x s) xs s.
(** ldml.py:307-312 *)
Definition key_update (d : list (pystr * list pystr)) (els attrs : list pystr) : list (pystr * list pystr) :=
  fold_left (fun d a => dset streq d a (supdate (match dget streq d a with Some s => s | None => [] end) attrs)) els d.
(** ldml.py:301-314 *)
Definition item_step (st : list (pystr * list pystr) * list (pystr * list pystr) * list pystr) (i : ditem) :=
  let '(key, nonkey, keys) := st in
  match i_elements i with
  | Some els => if i_exclude i then (key, key_update nonkey els (i_attributes i), keys)
                else (key_update key els (i_attributes i), nonkey, keys)
  | None => (key, nonkey, supdate keys (i_attributes i))
  end.
(** ldml.py:315-317 *)
Definition sil_keys (key : list (pystr * list pystr)) : list (pystr * list pystr) :=
  dset streq (dset streq (dset streq key
    (siltag (lit "matched-pair")) [lit "open"; lit "close"])
    (siltag (lit "quotation")) [lit "level"])
    (siltag (lit "punctuation-pattern")) [lit "context"; lit "pattern"].
(** ldml.py:282-317: [tz] are the lines of tzones.csv, [serial] the words of serialElements *)
Definition read_metadata (ws : N -> bool) (key0 nonkey0 : list (pystr * list pystr)) (ds : list decl) (tz : list pystr)
    (serial : list pystr) (items : list ditem) : res meta :=
  do dm <- read_dtd key0 ds;
  do zones <- M_ZoneTab.read_tz ws tz;
  let '(d, maxats) := dm in
  let vals := dset streq (d_attvals d) (lit "zone") (dset streq (sub (d_attvals d) (lit "zone")) (lit "type") zones) in
  let '(key, nonkey, keys) := fold_left item_step items (d_key d, nonkey0, []) in
  Ok {| m_keys := keys; m_nonkey := nonkey; m_key := sil_keys key; m_attord := d_attord d; m_maxats := maxats;
        m_elord := d_elord d; m_maxels := d_maxels d; m_attvals := vals; m_serial := supdate [] (serial ++ [lit "special"]);
        m_blocks := [lit "identity"; lit "collation"] |}.

(** Model of the small parts of /repo/lib/sldr/ldml.py and ldml_merge.py: text protection,
    namespaced names, draft levels, the search for locale files and the element hashes. *)
From Coq Require Import String.
From Verif Require Import Py.
Local Open Scope list_scope.

(** * ldml.py 52-58: _elementprotect and _attribprotect. *)
Definition elementprotect : list (N * pystr) :=
  [ (38%N, lit "&amp;"); (60%N, lit "&lt;"); (62%N, lit "&gt;") ].
Definition attribprotect : list (N * pystr) :=
  elementprotect ++ [ (34%N, lit "&quot;"); (39%N, lit "&apos;") ].

(** ldml.py 114-116: ETWriter._protect. The regular expression is a character class made of
    the keys of the table, so each character is looked up on its own. *)
Definition protect (base : list (N * pystr)) (txt : pystr) : pystr :=
  flat_map (fun c => match dget N.eqb base c with Some e => e | None => [c] end) txt.

(** * Namespaced names *)

(** [s.find(c)]: the parts before and after the first [c]. *)
Fixpoint partition1 (c : N) (s : pystr) : option (pystr * pystr) :=
  match s with
  | [] => None
  | x :: s' =>
      if N.eqb x c then Some ([], s')
      else match partition1 c s' with
           | Some (a, b) => Some (x :: a, b)
           | None => None
           end
  end.

(** the first key whose value is [v], in the order of [items()] *)
Fixpoint key_of (ns : list (pystr * pystr)) (v : pystr) : option pystr :=
  match ns with
  | [] => None
  | (k, v') :: ns' => if streq v v' then Some k else key_of ns' v
  end.

(** ldml.py 64-73 (reverse_localns) and 203-212 (ETWriter._reverselocalns): the same code, the
    table is an argument of one and an attribute of the other. *)
Definition reverse_localns (ns : list (pystr * pystr)) (tag : pystr) : pystr :=
  match partition1 58%N tag with          (* nsi = tag.find(":") *)
  | Some ([], _) => tag                   (* nsi == 0 *)
  | Some (nst, rest) =>
      match key_of ns nst with
      | Some k => 123%N :: k ++ 125%N :: rest
      | None => tag
      end
  | None => tag                           (* nsi == -1 *)
  end.

(** ldml.py 75-82 (localns). [tag[0]] on an empty string is an IndexError; unpacking the
    result of a split that found no closing brace is a ValueError. *)
Definition localns (ns : list (pystr * pystr)) (tag : pystr) : res pystr :=
  match tag with
  | [] => Raise IndexError
  | c :: tag' =>
      if N.eqb c 123 then
        match partition1 125%N tag' with
        | None => Raise ValueError
        | Some (nst, localname) =>
            match dget streq ns nst with
            | Some (q :: qs) => Ok ((q :: qs) ++ 58%N :: localname)
            | _ => Ok tag
            end
        end
      else Ok tag
  end.

(** [str(n)] for a natural number. Fuel is the number itself, enough for its digits. *)
Fixpoint dec_aux (fuel : nat) (n : N) : pystr :=
  match fuel with
  | O => []
  | S f => (if N.ltb n 10 then [] else dec_aux f (n / 10)) ++ [(48 + n mod 10)%N]
  end.
Definition decstr (n : nat) : pystr := dec_aux (S n) (N.of_nat n).

(** ldml.py 101-112 (ETWriter._localisens). The first component of the result is the new
    value of [nscount]. *)
Definition localisens (ns : list (pystr * pystr)) (nscount : nat) (tag : pystr)
  : res (nat * (pystr * pystr * option pystr)) :=
  match tag with
  | [] => Raise IndexError
  | c :: tag' =>
      if N.eqb c 123 then
        match partition1 125%N tag' with
        | None => Raise ValueError
        | Some (uri, localname) =>
            match dget streq ns uri with
            | Some (q :: qs) =>
                Ok (nscount, ((q :: qs) ++ 58%N :: localname, q :: qs, Some uri))
            | _ => Ok (S nscount, (localname, lit "ns" ++ decstr (S nscount), Some uri))
            end
        end
      else Ok (nscount, (tag, [], None))
  end.

(** * Draft levels *)

(** ldml.py 227-228: _alldrafts and draftratings. *)
Definition alldrafts : list pystr :=
  [ lit "approved"; lit "contributed"; lit "provisional"; lit "unconfirmed"; lit "tentative";
    lit "generated"; lit "suspect" ].
Fixpoint enum_from (i : nat) (l : list pystr) : list (pystr * nat) :=
  match l with [] => [] | v :: l' => (v, i) :: enum_from (S i) l' end.
Definition draftratings : list (pystr * nat) := enum_from 0 alldrafts.
Definition maxrating : nat := List.length draftratings.

(** [draftratings.get(k, d)] for a key that may be None *)
Definition rating (k : option pystr) (d : nat) : nat :=
  match k with
  | Some k => match dget streq draftratings k with Some n => n | None => d end
  | None => d
  end.

(** ldml.py 895-899 (Ldml.get_draft). [dd] is [self.default_draft] and [draft] the draft
    attribute of the element (None for a missing attribute or no element).
    [draftratings[self.default_draft]] is evaluated first and can raise KeyError. *)
Definition get_draft (dd : pystr) (draft default : option pystr) : res nat :=
  match draft with
  | Some d => Ok (rating (Some d) 5)
  | None =>
      match dget streq draftratings dd with
      | None => Raise KeyError
      | Some n => Ok (rating default n)
      end
  end.

(** ldml.py 936-946 (Ldml.alt) with at most one argument, as all callers use it. *)
Definition alt_name (uid : option pystr) (a : option pystr) : pystr :=
  let proposed := match a with Some (c :: s) => c :: s | _ => lit "proposed" end in
  match uid with
  | Some u => proposed ++ lit "-" ++ u
  | None => proposed
  end.

(** * Finding locale files *)

(** posixpath.join for two arguments. *)
Definition path_join (a b : pystr) : pystr :=
  match b with
  | 47%N :: _ => b
  | _ => match rev a with
         | [] => b
         | 47%N :: _ => a ++ b
         | _ => a ++ 47%N :: b
         end
  end.

Definition replace_char (c d : N) (s : pystr) : pystr :=
  map (fun x => if N.eqb x c then d else x) s.

(** first element satisfying a test: a for loop with a return inside *)
Fixpoint first_that {A} (p : A -> bool) (l : list A) : option A :=
  match l with [] => None | x :: l' => if p x then Some x else first_that p l' end.

(** ldml.py 42-49 (getldml). The file system is the argument [ex] (os.path.exists), [lower] is
    str.lower; the result is the name of the file that gets loaded. *)
Fixpoint getldml_dirs (ex : pystr -> bool) (p fn : pystr) (dirs : list pystr) : option pystr :=
  match dirs with
  | [] => None
  | i :: dirs' =>
      let filep := path_join (path_join i p) fn in
      if ex filep then Some filep else getldml_dirs ex p fn dirs'
  end.
Definition getldml_ldml (ex : pystr -> bool) (lower : pystr -> pystr)
    (loc : pystr) (indirs : list pystr) : res (option pystr) :=
  match loc with
  | [] => Raise IndexError
  | c :: _ =>
      let fn := replace_char 45 95 loc ++ lit ".xml" in
      match getldml_dirs ex (lit ".") fn indirs with
      | Some f => Ok (Some f)
      | None => Ok (getldml_dirs ex (lower [c]) fn indirs)
      end
  end.

(** ldml_merge.py 376-384 (getldml). *)
Fixpoint getldml_merge (ex : pystr -> bool) (lower : pystr -> pystr)
    (lname : pystr) (dirs : list pystr) : res (option pystr) :=
  match dirs with
  | [] => Ok None
  | d :: dirs' =>
      let f := path_join d (lname ++ lit ".xml") in
      if ex f then Ok (Some f)
      else match lname with
           | [] => Raise IndexError
           | c :: _ =>
               let f2 := path_join (path_join d (lower [c])) (lname ++ lit ".xml") in
               if ex f2 then Ok (Some f2) else getldml_merge ex lower lname dirs'
           end
  end.

(** * Elements and their hashes *)

(** An XML element: tag, attributes in document order, text (None or a string), children.
    The tail is not kept: normalise clears it (ldml.py 779). *)
Inductive node : Type :=
| Node (tag : pystr) (attrs : list (pystr * pystr)) (text : option pystr) (kids : list node).
Definition ntag n := let '(Node t _ _ _) := n in t.
Definition nattrs n := let '(Node _ a _ _) := n in a.
Definition ntext n := let '(Node _ _ x _) := n in x.
Definition nkids n := let '(Node _ _ _ k) := n in k.

(** The class attributes of Ldml read from the DTD and the metadata (ldml.py 276-398). *)
Record meta := {
  m_keys : list pystr;                                (* cls.keys *)
  m_nonkey : list (pystr * list pystr);               (* cls.nonkeyContexts *)
  m_key : list (pystr * list pystr);                  (* cls.keyContexts *)
  m_attord : list (pystr * list (pystr * nat));       (* cls.attributeOrder *)
  m_maxats : nat;                                     (* cls.maxAts *)
  m_elord : list (pystr * list (pystr * nat));        (* cls.elementOrder *)
  m_maxels : nat;                                     (* cls.maxEls *)
  m_attvals : list (pystr * list (pystr * list (pystr * pystr)));  (* cls.attribvals *)
  m_serial : list pystr;                              (* cls.serialElements *)
  m_blocks : list pystr                               (* cls.blocks *)
}.

Definition memstr (x : pystr) (l : list pystr) : bool := existsb (streq x) l.

Definition silns : pystr := lit "urn://www.sil.org/ldml/0.1".
Definition siltag (s : pystr) : pystr := 123%N :: silns ++ 125%N :: s.

(** ldml.py 817-826 (_distattributes) and 834-840: is [k] a distinguishing attribute of [tag]? *)
Definition is_dist (m : meta) (usedrafts : bool) (tag k : pystr) : bool :=
  let nk := match dget streq (m_nonkey m) tag with Some s => s | None => [] end in
  let kk := match dget streq (m_key m) tag with Some s => s | None => [] end in
  ((memstr k (m_keys m) && negb (memstr k nk)) || memstr k kk)
  && negb (usedrafts && streq k (lit "draft")).

(** comparison of (key, value) tuples, for sorted(base.items()) *)
Definition pairleb (a b : pystr * pystr) : bool :=
  match strcmp (fst a) (fst b) with
  | Lt => true | Gt => false | Eq => strleb (snd a) (snd b)
  end.

Section Hash.
  Variable hasher : pystr -> Z.          (* the built in hash of str: any function *)
  Local Open Scope Z_scope.
  Definition hmult := 1000003.
  Definition hmod := 2 ^ 64.             (* "& 0xFFFFFFFFFFFFFFFF" *)

  (** ldml.py 250-254 (_minhash.update with nominhash). *)
  Definition hupdate (h : Z) (vec : list pystr) : Z :=
    (fold_left (fun x y => x * hmult + y) (map hasher vec) h) mod hmod.
  (** ldml.py 256-258 (_minhash.merge). *)
  Definition hmerge (h a : Z) : Z := (h * hmult + a) mod hmod.

  Variable m : meta.
  Variable usedrafts : bool.

  (** ldml.py 841-851: the loop over the attributes, on the pair (attrHash, contentHash). *)
  Definition attr_step (tag : pystr) (hh : Z * Z) (kv : pystr * pystr) : Z * Z :=
    let '(ah, ch) := hh in
    let '(k, v) := kv in
    if usedrafts && streq k (lit "alt") then (ah, ch)
    else if is_dist m usedrafts tag k then (hupdate ah [k; v], ch)
    else if negb usedrafts
            || (negb (streq k (lit "draft")) && negb (streq k (lit "alt"))
                && negb (streq k (siltag (lit "alias"))))
         then (ah, hupdate ch [k; v])
         else (ah, ch).

  (** ldml.py 828-852 (_calc_hashes) given the content hashes of the children: the attribute
      hash and the content hash of the element. *)
  Definition calc_hashes (tag : pystr) (attrs : list (pystr * pystr)) (text : option pystr)
      (kidhashes : list Z) : Z * Z :=
    let c0 := fold_left hmerge kidhashes 0 in
    let c1 := match text with
              | Some (c :: s) => hupdate c0 (split_on 10%N (c :: s))
              | _ => c0
              end in
    let '(ah, ch) := fold_left (attr_step tag) (isort pairleb attrs) (hupdate 0 [tag], c1) in
    (ah, hmerge ch ah).

  (** the hashes of an element of a freshly hashed tree *)
  Fixpoint node_hashes (n : node) : Z * Z :=
    match n with
    | Node tag attrs text kids =>
        calc_hashes tag attrs text (map (fun k => snd (node_hashes k)) kids)
    end.
  Definition attr_hash (n : node) : Z := fst (node_hashes n).
  Definition content_hash (n : node) : Z := snd (node_hashes n).
End Hash.

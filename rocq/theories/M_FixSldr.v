(** Model of scripts/fixsldr: what is done to a document (105-178), up to normalising and
    writing it, which C05 and others are about.
    Simplifications: an element that is found and then changed is changed in place ([upd_first]);
    [langmap] (88-103) is an argument; namespaces of the writer are left out. *)
From Coq Require Import String.
From Verif Require Import Py.
Local Open Scope list_scope.

(** an element: tag, attributes, text, comments before it, children *)
Inductive xel := X (tag : pystr) (attrs : list (pystr * pystr)) (text : option pystr) (comments : list pystr) (kids : list xel).
Definition xtag x := let '(X t _ _ _ _) := x in t.
Definition xattrs x := let '(X _ a _ _ _) := x in a.
Definition xtext x := let '(X _ _ t _ _) := x in t.
Definition xcomments x := let '(X _ _ _ c _) := x in c.
Definition xkids x := let '(X _ _ _ _ k) := x in k.
Definition set_kids x k := let '(X t a s c _) := x in X t a s c k.
Definition set_attrs x a := let '(X t _ s c k) := x in X t a s c k.
Definition set_comments x c := let '(X t a s _ k) := x in X t a s c k.

Definition istag (t : pystr) (x : xel) : bool := streq (xtag x) t.
(** find(t) among children *)
Definition first (t : pystr) (ks : list xel) : option xel := find (istag t) ks.
(** find(t1/t2): the first match in document order *)
Fixpoint first2 (t1 t2 : pystr) (ks : list xel) : option xel :=
  match ks with
  | [] => None
  | k :: ks' => if istag t1 k then match first t2 (xkids k) with Some y => Some y | None => first2 t1 t2 ks' end else first2 t1 t2 ks'
  end.
(** what is done to find(t), if it is there *)
Fixpoint upd_first (t : pystr) (f : xel -> xel) (ks : list xel) : list xel :=
  match ks with [] => [] | k :: ks' => if istag t k then f k :: ks' else k :: upd_first t f ks' end.
(** ... and to find(t1/t2) *)
Fixpoint upd_first2 (t1 t2 : pystr) (f : xel -> xel) (ks : list xel) : list xel :=
  match ks with
  | [] => []
  | k :: ks' =>
      if istag t1 k then
        match first t2 (xkids k) with
        | Some _ => set_kids k (upd_first t2 f (xkids k)) :: ks'
        | None => k :: upd_first2 t1 t2 f ks'
        end
      else k :: upd_first2 t1 t2 f ks'
  end.
(** ... and to all of findall(t1/t2) *)
Definition upd_all2 (t1 t2 : pystr) (f : xel -> xel) (ks : list xel) : list xel :=
  map (fun k => if istag t1 k then set_kids k (map (fun y => if istag t2 y then f y else y) (xkids k)) else k) ks.
(** remove(find(t)) *)
Fixpoint remove_first (t : pystr) (ks : list xel) : list xel :=
  match ks with [] => [] | k :: ks' => if istag t k then ks' else k :: remove_first t ks' end.
Definition get (x : xel) (a : pystr) : option pystr := dget streq (xattrs x) a.
Definition set (a v : pystr) (x : xel) : xel := set_attrs x (dset streq (xattrs x) a v).

Definition silid : pystr := lit "{urn://www.sil.org/ldml/0.1}identity".

(** fixsldr:55-86 *)
Definition regionmap : list (pystr * pystr) :=
  [(lit "Benin", lit "BJ"); (lit "Bolivia", lit "BO"); (lit "Brazil", lit "BR");
   (lit "Burkina Faso", lit "BF"); (lit "Cameroon", lit "CM"); (lit "Cape Verde Islands", lit "CV");
   (lit "Central African Republic", lit "CF"); (lit "Chad", lit "TD"); (lit "Congo", lit "CG");
   (lit "Democratic Republic of Congo", lit "CD"); (lit "Equatorial Guinea", lit "GQ"); (lit "Eritrea", lit "ER");
   (lit "Ethiopia", lit "ET"); (lit "Ghana", lit "GH"); (lit "Guinea", lit "GW");
   (lit "Iran", lit "IR"); (lit "Kenya", lit "KE"); (lit "Liberia", lit "LR");
   (lit "Malaysia", lit "MY"); (lit "Mali", lit "ML"); (lit "Niger", lit "NE");
   (lit "Nigeria", lit "NG"); (lit "Pakistan", lit "PK"); (lit "Papua New Guinea", lit "PG");
   (lit "Senegal", lit "SN"); (lit "Sierra Leone", lit "SL"); (lit "Sudan", lit "SD");
   (lit "Togo", lit "TG"); (lit "Uganda", lit "UG"); (lit "Viet Nam", lit "VN")].

(** fixsldr:105-114 add_silidentity, and setting an attribute of what it gives *)
Definition sil_in (a v : pystr) (ident : xel) : xel :=
  match first2 (lit "special") silid (xkids ident) with
  | Some _ => set_kids ident (upd_first2 (lit "special") silid (set a v) (xkids ident))
  | None => set_kids ident (xkids ident ++ [X (lit "special") [] None [] [X silid [(a, v)] None [] []]])
  end.
Definition add_sil (a v : pystr) (ks : list xel) : list xel :=
  match first (lit "identity") ks with
  | Some _ => upd_first (lit "identity") (sil_in a v) ks
  | None => ks ++ [sil_in a v (X (lit "identity") [] None [] [])]
  end.

(** fixsldr:129-142 *)
Definition drop_default (t v : pystr) (orient : xel) : xel :=
  match first t (xkids orient) with
  | Some c => match xtext c with
              | Some s => if streq s v then set_kids orient (remove_first t (xkids orient)) else orient
              | None => orient
              end
  | None => orient
  end.
Definition fix_orientation (ks : list xel) : list xel :=
  match first (lit "orientation") ks with
  | None => ks
  | Some o =>
      let o := drop_default (lit "lineOrder") (lit "top-to-bottom") (drop_default (lit "characterOrder") (lit "left-to-right") o) in
      let ks := remove_first (lit "orientation") ks in
      match xkids o with
      | [] => ks
      | _ =>
          match first (lit "layout") ks with
          | Some _ => upd_first (lit "layout") (fun l => set_kids l (xkids l ++ [o])) ks
          | None => ks ++ [X (lit "layout") [] None [] [o]]
          end
      end
  end.
(** fixsldr:143-153 *)
Definition undraft (e : xel) : xel := match get e (lit "draft") with None => set (lit "draft") (lit "unconfirmed") e | Some _ => e end.
Definition fix_status (ks : list xel) : list xel :=
  match first (lit "status") ks with
  | None => ks
  | Some s =>
      let ks := remove_first (lit "status") ks in
      match get s (lit "value") with
      | Some v =>
          let ks := if streq v (lit "HOLD") then add_sil (lit "usage") (lit "unused") ks else ks in
          if (streq v (lit "Draft") || streq v (lit "HOLD"))%bool
          then upd_all2 (lit "characters") (lit "exemplarCharacters") undraft ks else ks
      | None => ks
      end
  end.
(** fixsldr:154-162 *)
Definition fix_region (ks : list xel) : list xel :=
  let ks := match first2 (lit "regionInfo") (lit "region") ks with
            | Some r => match dget streq regionmap (match get r (lit "type") with Some t => t | None => [] end) with
                        | Some c => add_sil (lit "defaultRegion") c ks
                        | None => ks
                        end
            | None => ks
            end in
  remove_first (lit "regionInfo") ks.
(** fixsldr:163-170 *)
Definition fix_subtag (n : xel) : xel :=
  let a := ddel streq (xattrs n) (lit "name") in
  let a := match dget streq a (lit "code") with
           | Some v => dset streq (ddel streq a (lit "code")) (lit "type") v
           | None => a
           end in
  set_comments (set_attrs n a) [].
(** fixsldr:173-177; format() gives "None" for None *)
Definition name_comment (langmap : pystr -> option pystr) (l : xel) : xel :=
  match xcomments l with
  | [] =>
      let i := get l (lit "type") in
      set_comments l [lit " name.en(" ++ (match i with Some t => t | None => lit "None" end) ++ lit ")=" ++ [34%N]
        ++ (match i with Some t => match langmap t with Some n => n | None => lit "Unknown" end | None => lit "Unknown" end) ++ [34%N] ++ lit " "]
  | _ => l
  end.
(** fixsldr:163-177 *)
Definition fix_identity (langmap : pystr -> option pystr) (ks : list xel) : list xel :=
  let ks := upd_first2 (lit "identity") (lit "language") fix_subtag ks in
  let ks := upd_first2 (lit "identity") (lit "script") fix_subtag ks in
  let ks := upd_all2 (lit "characters") (lit "exemplarCharacters") (fun e => set_comments e []) ks in
  upd_first2 (lit "identity") (lit "language") (name_comment langmap) ks.
(** fixsldr:116-178, up to normalise. With --debug the file name, which is bytes, is added to a
    string: TypeError. *)
Definition fixdoc (langmap : pystr -> option pystr) (root : xel) : xel :=
  set_kids root (fix_identity langmap (fix_region (fix_status (fix_orientation (xkids root))))).
Definition doit (debug : bool) (langmap : pystr -> option pystr) (root : xel) : res xel :=
  if debug then Raise TypeError else Ok (fixdoc langmap root).

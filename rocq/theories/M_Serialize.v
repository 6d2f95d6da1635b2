(** Model of ETWriter.serialize_xml (/repo/lib/sldr/ldml.py 118-184), the writer of documents,
    for trees without comments. With useDrafts off Ldml.serialize_xml (867-893) is this
    function. The text passed to write() is returned; the dictionary [namespaces], which
    Python mutates in place and which is the same object for every top level call (a mutable
    default argument), is threaded through, and so is the attribute nscount. *)
From Coq Require Import String.
From Verif Require Import Py M_LdmlBase.
Local Open Scope list_scope.

Notation nsdict := (list (pystr * pystr)).

Record writer := {
  w_ns : nsdict;                                   (* self.namespaces: uri -> prefix *)
  w_attord : list (pystr * list (pystr * nat));    (* self.attributeOrder *)
  w_maxats : nat;                                  (* self.maxAts *)
  w_cdata : list pystr                             (* self.takesCData *)
}.

(** [s.replace("\n", "\n" + ind)] *)
Definition indent_lines (ind : pystr) (s : pystr) : pystr :=
  flat_map (fun c => if N.eqb c 10 then 10%N :: ind else [c]) s.

Definition nl : pystr := [10%N].
Definition tab : pystr := [9%N].                   (* ETWriter.indent *)
Definition xml_uri : pystr := lit "http://www.w3.org/XML/1998/namespace".

Section Ser.
  Variable w : writer.

  (** lines 129-133: _sortedattrs; the sort key is the pair (getorder(x), x) *)
  Definition attr_order (tag x : pystr) : nat :=
    match dget streq (w_attord w) tag with
    | Some d => match dget streq d x with Some n => n | None => w_maxats w end
    | None => w_maxats w
    end.
  Definition attr_leb (tag : pystr) (x y : pystr) : bool :=
    match Nat.compare (attr_order tag x) (attr_order tag y) with
    | Lt => true | Gt => false | Eq => strleb x y
    end.
  Definition sortedattrs (tag : pystr) (ks : list pystr) : list pystr := isort (attr_leb tag) ks.

  (** lines 118-127: _nsprotectattribs. State: nscount, localattribs, namespaces. *)
  Fixpoint nsprotect (attrs : list (pystr * pystr)) (cnt : nat) (la : list (pystr * pystr))
      (nss : nsdict) : res (nat * list (pystr * pystr) * nsdict) :=
    match attrs with
    | [] => Ok (cnt, la, nss)
    | (k, v) :: attrs' =>
        do r <- localisens (w_ns w) cnt k;
        let '(cnt, (lt, lq, lns)) := r in
        let '(la, nss) :=
          match lns with
          | Some (u :: us) =>
              if dmem streq nss (u :: us) then (la, nss)
              else (dset streq la (lit "xmlns:" ++ lq) (u :: us), dset streq nss (u :: us) lq)
          | _ => (la, nss)
          end in
        nsprotect attrs' cnt (dset streq la lt v) nss
    end.

  (** lines 148-152: the declarations on the root element *)
  Fixpoint declare_all (ns : nsdict) (la : list (pystr * pystr)) (nss : nsdict)
    : list (pystr * pystr) * nsdict :=
    match ns with
    | [] => (la, nss)
    | (n, q) :: ns' =>
        if streq q (lit "xml") then declare_all ns' la nss
        else declare_all ns' (dset streq la (lit "xmlns:" ++ q) n) (dset streq nss n q)
    end.

  (** lines 154-158: the declarations for the children, when topns is off *)
  Fixpoint declare_kids (q : pystr) (kids : list node) (cnt : nat) (la : list (pystr * pystr))
      (nss : nsdict) : res (nat * list (pystr * pystr) * nsdict) :=
    match kids with
    | [] => Ok (cnt, la, nss)
    | c :: kids' =>
        do r <- localisens (w_ns w) cnt (ntag c);
        let '(cnt, (lt, lq, lns)) := r in
        match lns with
        | Some (u :: us) =>
            if dmem streq nss (u :: us) then declare_kids q kids' cnt la nss
            else declare_kids q kids' cnt (dset streq la (lit "xmlns:" ++ lq) (u :: us))
                   (dset streq nss (u :: us) q)          (* line 157: q, not lq *)
        | _ => declare_kids q kids' cnt la nss
        end
    end.

  (** lines 168-169: the attributes as text *)
  Fixpoint write_attrs (ks : list pystr) (la : list (pystr * pystr)) (cnt : nat) : res (nat * pystr) :=
    match ks with
    | [] => Ok (cnt, [])
    | k :: ks' =>
        do r <- localisens (w_ns w) cnt k;
        let '(cnt, (lt, _, _)) := r in
        match dget streq la k with
        | None => Raise KeyError
        | Some v =>
            do r2 <- write_attrs ks' la cnt;
            let '(cnt, s) := r2 in
            Ok (cnt, lit " " ++ lt ++ lit "=""" ++ protect attribprotect v ++ lit """" ++ s)
        end
    end.

  (** lines 135-184: serialize_xml for one element. [root]: base is self.root. *)
  Fixpoint ser (topns root : bool) (indent : pystr) (n : node) (cnt : nat) (nss : nsdict)
    : res (nat * nsdict * pystr) :=
    match n with
    | Node btag attrs text kids =>
        do r <- localisens (w_ns w) cnt btag;
        let '(cnt, (tag, q, ns)) := r in
        let '(la, nss) :=
          match ns with
          | Some (u :: us) =>
              if dmem streq nss (u :: us) then ([], nss)
              else ([(lit "xmlns:" ++ q, u :: us)], dset streq nss (u :: us) q)
          | _ => ([], nss)
          end in
        do r <- (if topns then
                   Ok (if root then let '(la, nss) := declare_all (w_ns w) la nss in (cnt, la, nss)
                       else (cnt, la, nss))
                 else declare_kids q kids cnt la nss);
        let '(cnt, la, nss) := r in
        do r <- nsprotect attrs cnt la nss;
        let '(cnt, la, nss) := r in
        do r <- write_attrs (sortedattrs btag (dkeys la)) la cnt;
        let '(cnt, atxt) := r in
        let start := indent ++ lit "<" ++ tag ++ atxt in
        match kids with
        | _ :: _ =>
            do r <- (fix kloop (ks : list node) (cnt : nat) : res (nat * pystr) :=
                       match ks with
                       | [] => Ok (cnt, [])
                       | k :: ks' =>
                           do r1 <- ser topns false (indent ++ tab) k cnt nss;  (* a copy *)
                           let '(cnt, _, s1) := r1 in
                           do r2 <- kloop ks' cnt;
                           let '(cnt, s2) := r2 in
                           Ok (cnt, s1 ++ s2)
                       end) kids cnt;
            let '(cnt, ktxt) := r in
            Ok (cnt, nss, start ++ lit ">" ++ nl ++ ktxt ++ indent ++ lit "</" ++ tag ++ lit ">" ++ nl)
        | [] =>
            match text with
            | Some (c :: s) =>
                let t := if memstr tag (w_cdata w)
                         then lit "<![CDATA[" ++ nl ++ tab ++ indent
                              ++ indent_lines (tab ++ indent) (c :: s)
                              ++ nl ++ indent ++ lit "]]>"
                         else protect elementprotect (indent_lines indent (c :: s)) in
                Ok (cnt, nss, start ++ lit ">" ++ t ++ lit "</" ++ tag ++ lit ">" ++ nl)
            | _ => Ok (cnt, nss, start ++ lit "/>" ++ nl)
            end
        end
    end.

  (** serialize_xml(write) for the whole document. *)
  Definition xml_header : pystr := lit "<?xml version=""1.0"" encoding=""utf-8""?>" ++ nl.
  Definition serialize (topns : bool) (root : node) (cnt : nat) (nss : nsdict)
    : res (nat * nsdict * pystr) :=
    do r <- ser topns true [] root cnt (dset streq nss xml_uri (lit "xml"));
    let '(cnt, nss, s) := r in
    Ok (cnt, nss, xml_header ++ s).
End Ser.

(** Specification of reading XML text, used to state C28 and C51. It is not a model of code in
    /repo: it says what an XML reader (expat, with namespace processing) reports for the part
    of XML the writer can produce: the declaration, tags with quoted attributes, the
    predefined entities and CDATA. It is more permissive than expat about names. *)
From Coq Require Import String.
From Verif Require Import Py M_LdmlBase M_TreeBuilder.
Local Open Scope list_scope.

(** XML 1.0, 2.2: the characters of a document, apart from the carriage return, which is gone
    after the end of line handling below. *)
Definition xml_char (c : N) : bool :=
  (N.eqb c 9 || N.eqb c 10 || (N.leb 32 c && N.leb c 55295)
   || (N.leb 57344 c && N.leb c 65533) || (N.leb 65536 c && N.leb c 1114111))%bool.

(** XML 1.0, 2.11: end of line handling. *)
Fixpoint eol (s : pystr) : pystr :=
  match s with
  | [] => []
  | 13%N :: ((10%N :: _) as s') => eol s'
  | c :: s' => (if N.eqb c 13 then 10%N else c) :: eol s'
  end.

(** the five predefined entities, by name *)
Definition entity (e : pystr) : option N :=
  dget streq [ (lit "amp", 38%N); (lit "lt", 60%N); (lit "gt", 62%N);
               (lit "quot", 34%N); (lit "apos", 39%N) ] e.

Definition is_space (c : N) : bool := inchars c [9; 10; 32]%N.
Definition name_char (c : N) : bool := negb (is_space c) && negb (inchars c (lit "<>&/='""?!")).

Notation atts := (list (pystr * pystr)).
Inductive lexer :=
| LText                                          (* character data *)
| LEnt (e : pystr)                               (* after "&" *)
| LLt                                            (* after "<" *)
| LPi (q : bool)                                 (* in "<? ... ?>"; q: after "?" *)
| LBang (s : pystr)                              (* after "<!" *)
| LCdata (k : nat)                               (* in CDATA, after k closing brackets *)
| LOpen (name : pystr)                           (* start tag, in the name *)
| LAttrs (name : pystr) (a : atts)               (* start tag, between attributes *)
| LAttName (name : pystr) (a : atts) (an : pystr)
| LAttEq (name : pystr) (a : atts) (an : pystr)  (* after "=" *)
| LAttVal (name : pystr) (a : atts) (an v : pystr)
| LAttEnt (name : pystr) (a : atts) (an v e : pystr)
| LSlash (name : pystr) (a : atts)               (* after "/" of an empty element *)
| LClose (name : pystr).                         (* end tag, in the name *)

(** One character: the new state and the events reported. Character data is reported one
    character at a time (expat may cut it anywhere). An attribute may not occur twice. White
    space in attribute values becomes a space (XML 1.0, 3.3.3). *)
Definition lex1 (st : lexer) (c : N) : option (lexer * list event) :=
  if negb (xml_char c) then None else
  match st with
  | LText =>
      if N.eqb c 60 then Some (LLt, [])
      else if N.eqb c 38 then Some (LEnt [], [])
      else Some (LText, [EData [c]])
  | LEnt e =>
      if N.eqb c 59 then
        match entity e with Some x => Some (LText, [EData [x]]) | None => None end
      else Some (LEnt (e ++ [c]), [])
  | LLt =>
      if N.eqb c 47 then Some (LClose [], [])
      else if N.eqb c 63 then Some (LPi false, [])
      else if N.eqb c 33 then Some (LBang [], [])
      else if name_char c then Some (LOpen [c], [])
      else None
  | LPi q =>
      if q && N.eqb c 62 then Some (LText, []) else Some (LPi (N.eqb c 63), [])
  | LBang s =>
      if streq (s ++ [c]) (lit "[CDATA[") then Some (LCdata 0, [])
      else if startswith (s ++ [c]) (lit "[CDATA[") then Some (LBang (s ++ [c]), [])
      else None
  | LCdata k =>
      if N.eqb c 93 then
        if Nat.eqb k 2 then Some (LCdata 2, [EData [93%N]]) else Some (LCdata (S k), [])
      else if N.eqb c 62 && Nat.eqb k 2 then Some (LText, [])
      else Some (LCdata 0, repeat (EData [93%N]) k ++ [EData [c]])
  | LOpen name =>
      if name_char c then Some (LOpen (name ++ [c]), [])
      else if is_space c then Some (LAttrs name [], [])
      else if N.eqb c 62 then Some (LText, [EStart name []])
      else if N.eqb c 47 then Some (LSlash name [], [])
      else None
  | LAttrs name a =>
      if is_space c then Some (LAttrs name a, [])
      else if N.eqb c 62 then Some (LText, [EStart name a])
      else if N.eqb c 47 then Some (LSlash name a, [])
      else if name_char c then Some (LAttName name a [c], [])
      else None
  | LAttName name a an =>
      if N.eqb c 61 then
        if dmem streq a an then None else Some (LAttEq name a an, [])
      else if name_char c then Some (LAttName name a (an ++ [c]), [])
      else None
  | LAttEq name a an =>
      if N.eqb c 34 then Some (LAttVal name a an [], []) else None
  | LAttVal name a an v =>
      if N.eqb c 34 then Some (LAttrs name (a ++ [(an, v)]), [])
      else if N.eqb c 38 then Some (LAttEnt name a an v [], [])
      else if N.eqb c 60 then None
      else Some (LAttVal name a an (v ++ [if is_space c then 32%N else c]), [])
  | LAttEnt name a an v e =>
      if N.eqb c 59 then
        match entity e with Some x => Some (LAttVal name a an (v ++ [x]), []) | None => None end
      else Some (LAttEnt name a an v (e ++ [c]), [])
  | LSlash name a =>
      if N.eqb c 62 then Some (LText, [EStart name a; EEnd name]) else None
  | LClose name =>
      if N.eqb c 62 then Some (LText, [EEnd name])
      else if name_char c then Some (LClose (name ++ [c]), [])
      else None
  end.
Fixpoint lex (st : lexer) (s : pystr) : option (lexer * list event) :=
  match s with
  | [] => Some (st, [])
  | c :: s' =>
      match lex1 st c with
      | None => None
      | Some (st1, es1) =>
          match lex st1 s' with
          | None => None
          | Some (st2, es2) => Some (st2, es1 ++ es2)
          end
      end
  end.

(** ** Namespaces in XML: names are reported as {uri}local. *)
Definition xmlns_prefix (k : pystr) : option pystr := strip_prefix (lit "xmlns:") k.
Definition scope0 : list (pystr * pystr) := [(lit "xml", lit "http://www.w3.org/XML/1998/namespace")].
Definition expand_name (scope : list (pystr * pystr)) (q : pystr) : option pystr :=
  match partition1 58%N q with
  | None => Some q
  | Some (p, local) =>
      match dget streq scope p with
      | Some uri => Some (lit "{" ++ uri ++ lit "}" ++ local)
      | None => None                                  (* unbound prefix *)
      end
  end.
(** The attributes of a start tag: declarations (prefix, uri), and the others. The default
    namespace (xmlns="...") is not produced by the writer and refused here. *)
Fixpoint declarations (a : atts) : list (pystr * pystr) :=
  match a with
  | [] => []
  | (k, v) :: a' => match xmlns_prefix k with
                    | Some p => (p, v) :: declarations a'
                    | None => declarations a'
                    end
  end.
Fixpoint expand_attrs (scope : list (pystr * pystr)) (a : atts) : option atts :=
  match a with
  | [] => Some []
  | (k, v) :: a' =>
      match xmlns_prefix k with
      | Some _ => expand_attrs scope a'
      | None =>
          if streq k (lit "xmlns") then None else
          match expand_name scope k, expand_attrs scope a' with
          | Some k', Some r => Some ((k', v) :: r)
          | _, _ => None
          end
      end
  end.
(** The scopes of the open elements, innermost first. *)
Fixpoint nsresolve (scopes : list (list (pystr * pystr))) (es : list event) : option (list event) :=
  match es with
  | [] => Some []
  | EData d :: es' => option_map (cons (EData d)) (nsresolve scopes es')
  | EStart q a :: es' =>
      let scope := match scopes with [] => scope0 | s :: _ => s end in
      let scope' := declarations a ++ scope in
      match expand_name scope' q, expand_attrs scope' a with
      | Some t, Some a' => option_map (cons (EStart t a')) (nsresolve (scope' :: scopes) es')
      | _, _ => None
      end
  | EEnd q :: es' =>
      match scopes with
      | [] => None
      | scope :: scopes' =>
          match expand_name scope q with
          | Some t => option_map (cons (EEnd t)) (nsresolve scopes' es')
          | None => None
          end
      end
  end.

(** The tree read from a text: lex it, resolve namespaces, and build (with the TreeBuilder of
    the code). None: the text is not accepted. *)
Definition xml_read (s : pystr) : option xnode :=
  match lex LText (eol s) with
  | Some (LText, es) =>
      match nsresolve [] es with
      | Some es =>
          match tb_run tb_init es with
          | Ok st => match tb_close st with Ok x => Some x | Raise _ => None end
          | Raise _ => None
          end
      | None => None
      end
  | _ => None
  end.

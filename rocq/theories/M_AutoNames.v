(** Model of the script that fills in missing names of languages (/repo/scripts/sldrautonames).
    Parameters: the list of language tags, the characters of a set, normalising, reading and
    writing of a document. What is printed is not modelled. *)
From Coq Require Import String.
From Verif Require Import Py M_LdmlBase M_Collation M_Serialize M_Normalise M_Drafts M_Paths.
Local Open Scope list_scope.
Local Open Scope nat_scope.

(** what the script uses of a tag set; an attribute that is not there is None *)
Record tagset := TagSet { ts_name : option pystr; ts_localnames : option (list pystr); ts_localname : option pystr }.
Definition identity_path : pystr := lit ".//identity/special/sil:identity".
Definition exemplar_path : pystr := lit ".//characters/exemplarCharacters".
Definition english_path : pystr := lit "localeDisplayNames/special/sil:names/sil:name[@xml:lang=""en""]".
Definition language_path (name : pystr) : pystr := lit "localeDisplayNames/languages/language[@type=""" ++ name ++ lit """]".

(** line 24: os.path.splitext(os.path.basename(f))[0].replace("_", "-"). [stem] is the part of
    the name before its last full stop, if that is not at the start. *)
Definition basename (f : pystr) : pystr := last (split_on 47%N f) [].
Definition stem (f : pystr) : pystr :=
  match rev (split_on 46%N f) with
  | _ :: (x :: l) => let s := join [46%N] (rev (x :: l)) in
                     if forallb (N.eqb 46) s then f else s
  | _ => f
  end.
Definition tag_of (f : pystr) : pystr := map (fun c => if N.eqb c 95 then 45%N else c) (stem (basename f)).
(** s.replace("'", c) *)
Definition replace_apostrophe (c : N) (s : pystr) : pystr := map (fun x => if N.eqb x 39 then c else x) s.

Section AutoNames.
  Variable ws : N -> bool.
  Variable hasher : pystr -> Z.
  Variable m : meta.
  Variable useDrafts : bool.
  Variable ud uid : option pystr.
  Variable F : Type.
  Variable load : F -> res (pystr * list (pystr * pystr) * lnode).
  Variable save : pystr * list (pystr * pystr) * lnode -> F.
  Variable norm : lnode -> lnode.
  Variable lookup : pystr -> option tagset.
  Variable chars_of : pystr -> res (list N).      (* usets.parse(text, 'NFD')[0].asSet(), the single characters *)

  Section Doc.
    Variable dd : pystr.
    Variable ns : list (pystr * pystr).
    (** lines 31-33, 49-53: the first element of the path, which gets a text if it has none *)
    Definition name_at (root : lnode) (path text : pystr) : res lnode :=
      do r <- ensure_path ws hasher m dd useDrafts ud uid ns root [] path None None None None false None;
      match snd r with
      | [] => Raise IndexError
      | p :: _ =>
          match at_place (fst r) p with
          | None => Raise AttributeError                    (* not reached *)
          | Some x => Ok (match ltext x with
                          | None => put_at (fst r) p (set_text x (Some text))
                          | Some _ => fst r
                          end)
          end
      end.
    (** lines 37-41 *)
    Fixpoint main_chars (root : lnode) (l : list place_in_doc) : res (list N) :=
      match l with
      | [] => Ok []
      | p :: l' =>
          match at_place root p with
          | None => main_chars root l'                      (* not reached *)
          | Some e =>
              match lget e (lit "type"), ltext e with
              | Some (_ :: _), _ => main_chars root l'
              | _, Some (c :: t) => chars_of (c :: t)
              | _, _ => main_chars root l'
              end
          end
      end.
    (** lines 34-48: the local name *)
    Definition local_name (root : lnode) (t : tagset) : res (option pystr) :=
      match ts_localnames t with
      | None =>
          match ts_localname t with
          | None => Ok None
          | Some s =>
              do r <- findall ws hasher m dd useDrafts ud uid ns root [] exemplar_path;
              do cs <- main_chars root (snd r);
              Ok (Some (match List.find (fun c => existsb (N.eqb c) cs) [42892; 700]%N with
                        | Some c => replace_apostrophe c s
                        | None => s
                        end))
          end
      | Some l =>
          do r <- findall ws hasher m dd useDrafts ud uid ns root [] exemplar_path;
          do cs <- main_chars root (snd r);
          match l with
          | [] => Raise IndexError
          | s :: _ => Ok (Some (match List.find (fun c => existsb (N.eqb c) cs) [42892; 700]%N with
                                | Some c => replace_apostrophe c s
                                | None => s
                                end))
          end
      end.
    (** lines 29-53 *)
    Definition fill (root : lnode) (name : pystr) (t : tagset) : res lnode :=
      do root <- match ts_name t with
                 | Some n => name_at root english_path n
                 | None => Ok root
                 end;
      do ln <- local_name root t;
      match ln with
      | Some s => name_at root (language_path name) s
      | None => Ok root
      end.
    (** lines 18-55 for a document; None: the file is passed over *)
    Definition only_identity (root : lnode) : bool :=
      match lkids root with [e] => streq (ltag e) (lit "identity") | _ => false end.
    Definition do_doc (f : pystr) (root : lnode) : res (option lnode) :=
      if only_identity root then Ok None
      else
        do r <- find ws hasher m dd useDrafts ud uid ns root [] identity_path;
        match snd r with
        | None => Ok None
        | Some p =>
            match at_place root p with
            | None => Ok None                               (* not reached *)
            | Some e =>
                if streq (match lget e (lit "source") with Some s => s | None => [] end) (lit "cldr") then Ok None
                else match lookup (tag_of f) with
                     | None => Ok None
                     | Some t => do root <- fill root (tag_of f) t; Ok (Some (norm root))
                     end
            end
        end.
  End Doc.

  (** lines 17-55: the files one after the other; an exception leaves the script *)
  Fixpoint autonames (paths : list pystr) (files : list (pystr * F)) : list (pystr * F) * option exn :=
    match paths with
    | [] => (files, None)
    | f :: paths' =>
        match dget streq files f with
        | None => (files, Some KeyError)                    (* FileNotFoundError *)
        | Some c =>
            match load c with
            | Raise e => (files, Some e)
            | Ok (dd, ns, root) =>
                match do_doc dd ns f root with
                | Raise e => (files, Some e)
                | Ok None => autonames paths' files
                | Ok (Some root) => autonames paths' (dset streq files f (save (dd, ns, root)))
                end
            end
        end
    end.
End AutoNames.

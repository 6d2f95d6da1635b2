(** Model of reading spelling dictionaries (/repo/lib/sldr/hunspell.py). [lower] is str.lower,
    [upper] and [title] likewise; the attributes of a word are a dictionary. *)
From Coq Require Import String.
From Verif Require Import Py.
Local Open Scope list_scope.

Record word := Word { w_text : pystr; w_classes : option pystr; w_attrs : list (pystr * pystr) }.
Notation words := (list (pystr * word)).

Section Hunspell.
  Variable ws : N -> bool.
  Variables lower upper title : pystr -> pystr.
  (** str.split() *)
  Fixpoint cut_words (acc s : pystr) : list pystr :=
    match s with
    | [] => match acc with [] => [] | _ => [acc] end
    | c :: s' => if ws c then (match acc with [] => [] | _ => [acc] end) ++ cut_words [] s' else cut_words (acc ++ [c]) s'
    end.
  (** self.words[...] = ...; the attribute is not there while the file is read (line 53 comes before 54) *)
  Definition store (st : option words) (k : pystr) (w : word) : res (option words) :=
    match st with None => Raise AttributeError | Some d => Ok (Some (dset streq d k w)) end.
  (** lines 87-89 *)
  Fixpoint attributes (ps : list pystr) (w : word) : res word :=
    match ps with
    | [] => Ok w
    | p :: ps' => match split_on 58%N p with
                  | [t; v] => attributes ps' (Word (w_text w) (w_classes w) (dset streq (w_attrs w) t v))
                  | _ => Raise ValueError
                  end
    end.
  (** lines 63-89: one line; [n] is the undefined name of line 67, looked up before int() is called.
      The class type is always "short" (57); [ignore] has the characters to leave out. *)
  Definition dic_line (n : option Z) (ignore : pystr) (first : bool) (st : option words) (l : pystr) : res (option words) :=
    let w := cut_words [] l in
    match first, w with
    | true, [_] => match n with None => Raise NameError | Some _ => Ok st end
    | _, [] => Raise IndexError
    | _, w0 :: ps =>
        match split_on 47%N (w0 ++ lit "//") with
        | [d; c; _] =>
            let matched := filter (fun x => negb (existsb (N.eqb x) ignore)) (lower d) in
            let e := Word d (match c with [] => None | _ => Some c end) [] in
            do st <- store st matched e;
            do e' <- attributes ps e;
            do st <- store st matched e';
            if streq d (upper d) then store st (upper matched) e'
            else if streq d (title d) then store st (title matched) e'
            else Ok st
        | _ => Raise ValueError
        end
    end.
  Fixpoint dic_lines (n : option Z) (ignore : pystr) (first : bool) (st : option words) (ls : list pystr) : res (option words) :=
    match ls with
    | [] => Ok st
    | l :: ls' => do st <- dic_line n ignore first st l; dic_lines n ignore false st ls'
    end.
  (** lines 51-54: reading, then the empty dictionary *)
  Definition Dic (ignore : pystr) (ls : list pystr) : res words :=
    do _ <- dic_lines None ignore true None ls; Ok [].
  (** lines 10-12: list() of a method *)
  Definition Aff (ls : list pystr) : res unit := Raise TypeError.
  (** lines 91-94 *)
  Definition Hunspell (aff dic : list pystr) : res words :=
    do _ <- Aff aff; Dic [] dic.
End Hunspell.

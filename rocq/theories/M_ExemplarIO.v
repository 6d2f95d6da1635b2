(** Model of how sets of exemplars are given to and taken from an Exemplars object:
    /repo/lib/sldr/ldml_exemplars.py 216-228 (need_hex_escape), 305-362 (the properties main,
    auxiliary, index, punctuation, digits, and the script), 377-420 (ldml_read, ldml_write).
    ICU is a parameter: normal forms, character properties, the script code of a character and
    the order of the collator's sort keys. The short names of scripts are compared in the code;
    here the codes are (two scripts have the same name only if they have the same code, and no
    name is empty). The mode "unittest" is left out. *)
From Coq Require Import String.
From Verif Require Import Py M_UnicodeSets M_Exemplars.
Local Open Scope list_scope.
Local Open Scope nat_scope.

Record icu := {
  i_nfd : pystr -> pystr;
  i_nfc : pystr -> pystr;
  i_mark : N -> bool;               (* ismark, 83-91 *)
  i_ignorable : N -> bool;          (* DEFAULT_IGNORABLE_CODE_POINT *)
  i_format : N -> bool;             (* isformat *)
  i_space : N -> bool;              (* is_space_separator *)
  i_pua : N -> bool;                (* is_pua *)
  i_script : N -> N;                (* Script.getScriptCode(Script.getScript(char)) *)
  i_common : N;                     (* UScriptCode.COMMON *)
  i_inherited : N;                  (* UScriptCode.INHERITED *)
  i_keyleb : pystr -> pystr -> bool (* collator.getSortKey(a) <= collator.getSortKey(b) *)
}.

Section IO.
  Variable u : icu.
  Variable ud : N -> bool.          (* int() accepts the digit, see M_UnicodeSets *)

  (** lines 216-228 *)
  Definition need_hex (c : N) (isolated : bool) : bool :=
    if (i_mark u c && isolated)%bool then true
    else if i_ignorable u c then true
    else if i_format u c then true
    else if i_space u c then true
    else i_pua u c.

  (** lines 172-180 *)
  Definition specific (c : N) : bool :=
    negb (N.eqb (i_script u c) (i_common u) || N.eqb (i_script u c) (i_inherited u)).

  (** Counter.most_common(1): max() by count, the first of several *)
  Fixpoint most_common1 (d : list (N * nat)) : option (N * nat) :=
    match d with
    | [] => None
    | e :: d' =>
        match most_common1 d' with
        | Some e' => if snd e <? snd e' then Some e' else Some e
        | None => Some e
        end
    end.
  (** lines 352-362 *)
  Definition main_script (scripts : list (N * nat)) : option N :=
    match most_common1 scripts with Some (k, _) => Some k | None => None end.

  (** lines 377-389: the set, and max_multigraph_length *)
  Definition ldml_read (maxlen : nat) (s : pystr) : res (list pystr * nat) :=
    do l <- us2list ud s;
    Ok (fold_left (fun st x =>
                     let '(set, maxlen) := st in
                     let x := i_nfd u x in
                     (sadd set x, Nat.max maxlen (length x))) l ([], maxlen)).

  (** lines 408-414 *)
  Fixpoint main_only (scripts : list (N * nat)) (l : list pystr) : res (list pystr) :=
    match l with
    | [] => Ok []
    | [] :: _ => Raise IndexError
    | (c :: s) :: l' =>
        do r <- main_only scripts l';
        if (match main_script scripts with Some k => N.eqb (i_script u c) k | None => false end
            || negb (specific c))%bool
        then Ok ((c :: s) :: r) else Ok r
    end.

  (** lines 391-420 *)
  Definition ldml_write (scripts : list (N * nat)) (exemplars : list pystr) (sort : bool) : res pystr :=
    let l := if sort then isort (i_keyleb u) exemplars else exemplars in
    do l <- main_only scripts (map (i_nfc u) l);
    Ok (list2us need_hex l).
End IO.

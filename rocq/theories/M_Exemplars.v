(** Model of the collection and the analysis of exemplars, lib/sldr/ldml_exemplars.py 242-279
    and 420-798. The Unicode properties come from ICU; they are parameters, each a function of
    a code point (ICU looks at the first character of a string it is given). [lower] is
    [char.lower()] of one character; after canonical decomposition no character has a longer
    lower case form. The text given to [process] is taken as already normalised. The option
    maxmultigraphs, which only fills a table of its own, is left out (see M_Multigraphs). *)
From Coq Require Import String.
From Verif Require Import Py M_UnicodeSets.
Local Open Scope list_scope.
Local Open Scope nat_scope.

(** ldml_exemplars.py:231-274 an exemplar: its base and its trailers, compared by both *)
Notation exemplar := (pystr * pystr)%type.
Definition ex_eqb (a b : exemplar) : bool := (streq (fst a) (fst b) && streq (snd a) (snd b))%bool.
(** ldml_exemplars.py:237-239 *)
Definition ex_text (e : exemplar) : pystr := fst e ++ snd e.

(** a Counter of exemplars; a missing one counts 0 and deleting a missing one is allowed *)
Notation counter := (list (exemplar * nat)).
Definition cget (d : counter) (e : exemplar) : nat := match dget ex_eqb d e with Some n => n | None => 0 end.
Definition cadd (d : counter) (e : exemplar) (n : nat) : counter := dset ex_eqb d e (cget d e + n).
Definition cdel (d : counter) (e : exemplar) : counter := ddel ex_eqb d e.

(** the characters ZWJ and ZWNJ, ldml_exemplars.py:111-119 *)
Definition zwj : N := 8205.
Definition zwnj : N := 8204.

(** What ICU is asked for. *)
Record ucd := mkUCD {
  u_mark : N -> bool;        (* ismark, 80-89 *)
  u_ccc : N -> N;            (* Char.getCombiningClass *)
  u_number : N -> bool;      (* isnumber, 131-138 *)
  u_script : N -> bool;      (* is_specific_script, 170-179 *)
  u_wordbreak : N -> bool;   (* is_exemplar_wordbreak, 181-197 *)
  u_cpunct : N -> bool;      (* Char.ispunct *)
  u_upper : N -> bool;       (* Char.isUUppercase *)
  u_lower : N -> bool;       (* Char.isULowercase *)
  u_alpha : N -> bool;       (* Char.isUAlphabetic *)
  u_ignorable : N -> bool;   (* DEFAULT_IGNORABLE_CODE_POINT *)
  u_tolower : N -> N }.      (* str.lower of one character *)

Section Exemplars.
  Variable u : ucd.

  (** ldml_exemplars.py:91-109 *)
  Definition isnukta (c : N) : bool := N.eqb (u_ccc u c) 7.
  Definition sometimes_combine (c : N) : bool := (N.leb 768 c && N.leb c 879)%bool.
  Definition never_combine (c : N) : bool := (negb (isnukta c) && negb (sometimes_combine c))%bool.
  (** ldml_exemplars.py:199-207 *)
  Definition ispunct (c : N) : bool := if u_wordbreak u c then false else u_cpunct u c.
  (** ldml_exemplars.py:662-684 *)
  Definition allowable (c : N) : bool :=
    if u_number u c then true
    else if u_upper u c then false
    else if u_script u c then true
    else if u_wordbreak u c then true
    else u_alpha u c.

  (** * process, ldml_exemplars.py:686-798 *)

  (** the exemplar sets given beforehand, and the length of the longest of them *)
  Variables (preset : pystr -> bool) (maxlen : nat).

  (** ldml_exemplars.py:704-713: the longest prefix of the rest of the text that is a given
      exemplar; near the end of the text the slice is shorter than the length asked for *)
  Fixpoint find_multi (k : nat) (s : pystr) : option nat :=
    match k with
    | O => None
    | S k' => if preset (firstn k s) then Some k else find_multi k' s
    end.

  (** ldml_exemplars.py:757-778: the lengths of the cluster and of its base *)
  Fixpoint cluster_end (rest : pystr) (len blen : nat) : nat * nat :=
    match rest with
    | [] => (len, blen)
    | t :: r =>
        if N.eqb t zwj then cluster_end r (S len) blen
        else if N.eqb t zwnj then (S len, blen)
        else if u_mark u t then cluster_end r (S len) (if isnukta t then S blen else blen)
        else (len, blen)
    end.

  Record pstate := mkP { p_clusters : counter; p_upper : list pystr; p_lower : list pystr }.

  (** ldml_exemplars.py:736-796: one character and what belongs to it *)
  Definition single (s : pystr) (st : pstate) : pystr * pstate :=
    match s with
    | [] => ([], st)
    | c :: rest =>
        if ispunct c then (rest, mkP (cadd (p_clusters st) ([c], []) 1) (p_upper st) (p_lower st))
        else
          let ch := if u_upper u c then u_tolower u c else c in
          if negb (allowable ch) then (rest, st)
          else
            let (len, blen) := cluster_end rest 1 1 in
            let base := if 1 <? blen then firstn blen s else [ch] in
            let trailers := slice s blen len in
            let e := (base, trailers) in
            let t := ex_text e in
            let up := (u_upper u c && negb (smem t (p_upper st)))%bool in
            let lo := (negb up && u_lower u c && negb (smem t (p_lower st)))%bool in
            (skipn len s,
             mkP (cadd (p_clusters st) e 1)
                 (if up then p_upper st ++ [t] else p_upper st)
                 (if lo then p_lower st ++ [t] else p_lower st))
    end.

  (** ldml_exemplars.py:699-796: the while loop, on the rest of the text *)
  Fixpoint process_loop (fuel : nat) (s : pystr) (st : pstate) : res pstate :=
    match s with
    | [] => Ok st
    | _ :: _ =>
        match fuel with
        | O => Raise OutOfFuel
        | S f =>
            let '(s1, st1) :=
              match find_multi maxlen s with
              | Some k => (skipn k s, mkP (cadd (p_clusters st) (firstn k s, []) 1) (p_upper st) (p_lower st))
              | None => (s, st)
              end in
            let '(s2, st2) := single s1 st1 in
            process_loop f s2 st2
        end
    end.

  (** ldml_exemplars.py:692-696: the scripts met; [code] is Script.getScriptCode of a character *)
  Definition count_scripts (code : N -> N) (text : pystr) (d : list (N * nat)) : list (N * nat) :=
    fold_left (fun d c => dset N.eqb d (code c) (match dget N.eqb d (code c) with Some n => n | None => 0 end + 1)) text d.

  (** * analyze, ldml_exemplars.py:420-660 *)

  (** [exemplar.base[0]] *)
  Definition base0 (e : exemplar) : res N := match fst e with c :: _ => Ok c | [] => Raise IndexError end.

  (** ldml_exemplars.py:452-457 *)
  Definition find_punctuation (cl : counter) (punct : list pystr) : res (counter * list pystr) :=
    fold_left (fun r e =>
      do (cl, p) <- r; do c <- base0 e;
      Ok (if ispunct c then (cdel cl e, sadd p (fst e)) else (cl, p)))
      (dkeys cl) (Ok (cl, punct)).

  (** ldml_exemplars.py:459-464: [most_common] is the stable sort by falling count *)
  Definition most_common (cl : counter) : counter := isort (fun a b => Nat.leb (snd b) (snd a)) cl.
  Definition graphemes_of (cl : counter) : list pystr := map (fun kv => ex_text (fst kv)) (most_common cl).

  (** ldml_exemplars.py:483-488. ICU raises on an empty string. *)
  Definition find_numbers (cl : counter) (digits : list pystr) : res (counter * list pystr) :=
    fold_left (fun r e =>
      do (cl, p) <- r;
      do c <- match fst e with c :: _ => Ok c | [] => Raise TypeError end;
      Ok (if (u_number u c && match snd e with [] => true | _ => false end)%bool
          then (cdel cl e, sadd p (fst e)) else (cl, p)))
      (dkeys cl) (Ok (cl, digits)).

  (** ldml_exemplars.py:466-481: the bases each mark occurs on *)
  Notation markdict := (list (N * list pystr)).
  Definition count_marks (cl : counter) (bm : markdict) : markdict :=
    fold_left (fun bm e =>
      fold_left (fun bm t =>
        if u_mark u t then
          dset N.eqb bm t (match dget N.eqb bm t with Some bs => sadd bs (fst e) | None => sadd [] (fst e) end)
        else bm) (snd e) bm)
      (dkeys cl) bm.

  (** [t[:i] + t[i+1:]] *)
  Definition drop_nth (i : nat) (t : pystr) : pystr := firstn i t ++ skipn (S i) t.
  (** ldml_exemplars.py:490-511, for an exemplar whose base is not empty *)
  Definition split_exemplar (e : exemplar) (count : nat) (cl : counter) (i : nat) : counter :=
    match nth_error (snd e) i with
    | Some mark =>
        let cl1 := cadd cl ([], [mark]) count in
        let cl2 := cadd cl1 (fst e, drop_nth i (snd e)) count in
        cdel cl2 e
    | None => cl   (* the index is always in range *)
    end.

  (** A pass over the clusters: for each of them (as they were when the pass began) the places
      where it is split, in order and with repetitions. [asm] is the set of marks that are
      always separate, which one of the passes adds to. Also whether anything was split. *)
  Definition pass (rule : list N -> exemplar -> list N * list nat)
      (st : counter * list N * bool) : counter * list N * bool :=
    fold_left (fun st e =>
      let '(cl, asm, need) := st in
      let count := cget cl e in
      let (asm', idxs) := rule asm e in
      match fst e with
      | [] => (cl, asm', need)
      | _ :: _ => (fold_left (split_exemplar e count) idxs cl, asm',
                   (need || match idxs with [] => false | _ => true end)%bool)
      end) (dkeys (fst (fst st))) st.

  Definition places (f : N -> bool) (t : pystr) : list nat :=
    flat_map (fun i => match nth_error t i with Some c => if f c then [i] else [] | None => [] end)
      (seq 0 (length t)).

  (** ldml_exemplars.py:513-521 *)
  Definition indic_rule (asm : list N) (e : exemplar) : list N * list nat :=
    (asm, places (fun t => never_combine t || u_ignorable u t)%bool (snd e)).
  (** two sets of bases are the same: their symmetric difference is empty *)
  Definition same_bases (a b : list pystr) : bool :=
    (forallb (fun x => smem x b) a && forallb (fun x => smem x a) b)%bool.
  (** ldml_exemplars.py:523-541: once for each other mark that has the same bases *)
  Definition same_bases_rule (bm : markdict) (asm : list N) (e : exemplar) : list N * list nat :=
    (asm, flat_map (fun i =>
       match nth_error (snd e) i with
       | Some t => match dget N.eqb bm t with
                   | Some bs => flat_map (fun kv => if (negb (N.eqb t (fst kv)) && same_bases bs (snd kv))%bool
                                                    then [i] else []) bm
                   | None => []
                   end
       | None => []
       end) (seq 0 (length (snd e)))).
  (** ldml_exemplars.py:543-559 *)
  Definition productive_rule (many : nat) (bm : markdict) (asm : list N) (e : exemplar) : list N * list nat :=
    (asm, places (fun t => match dget N.eqb bm t with Some bs => many <? length bs | None => false end) (snd e)).
  (** ldml_exemplars.py:561-587 *)
  Fixpoint second_marks (asm : list N) (prev : option N) (i : nat) (t : pystr) : list N * list nat :=
    match t with
    | [] => (asm, [])
    | c :: t' =>
        let here := if existsb (N.eqb c) asm then [i] else [] in
        let stacked := match prev with Some p => N.eqb (u_ccc u c) (u_ccc u p) | None => false end in
        let asm' := if stacked then (if existsb (N.eqb c) asm then asm else asm ++ [c]) else asm in
        let (asm2, more) := second_marks asm' (Some c) (S i) t' in
        (asm2, here ++ (if stacked then [i] else []) ++ more)
    end.
  Definition second_rule (asm : list N) (e : exemplar) : list N * list nat := second_marks asm None 0 (snd e).

  (** ldml_exemplars.py:427-432: one round of the loop *)
  Definition split_round (many : nat) (bm : markdict) (cl : counter) (asm : list N) : counter * list N * bool :=
    pass second_rule (pass (productive_rule many bm) (pass (same_bases_rule bm) (pass indic_rule (cl, asm, false)))).
  Fixpoint split_loop (fuel : nat) (many : nat) (bm : markdict) (cl : counter) (asm : list N) : res (counter * list N) :=
    match fuel with
    | O => Raise OutOfFuel
    | S f => let '(cl', asm', need) := split_round many bm cl asm in
             if need then split_loop f many bm cl' asm' else Ok (cl', asm')
    end.

  (** ldml_exemplars.py:589-595 *)
  Definition parcel_marks (bm : markdict) (cl : counter) (aux : list pystr) : counter * list pystr :=
    fold_left (fun st e =>
      fold_left (fun (st : counter * list pystr) t =>
        let '(cl, aux) := st in
        if dmem N.eqb bm t then (cl, aux) else (cdel cl e, sadd aux [t])) (snd e) st)
      (dkeys cl) (cl, aux).

  (** ldml_exemplars.py:597-606: stops at the first exemplar without a base *)
  Fixpoint parcel_ignorable_from (es : list exemplar) (cl : counter) (aux : list pystr) : counter * list pystr :=
    match es with
    | [] => (cl, aux)
    | e :: es' =>
        match fst e with
        | [] => (cl, aux)
        | c :: _ => if u_ignorable u c then parcel_ignorable_from es' (cdel cl e) (sadd aux (fst e))
                    else parcel_ignorable_from es' cl aux
        end
    end.
  Definition parcel_ignorable (cl : counter) (aux : list pystr) : counter * list pystr :=
    parcel_ignorable_from (dkeys cl) cl aux.

  (** ldml_exemplars.py:608-625. The comparison [occurs > average * (frequent / 100)] is made
      on exact rationals here, on floating point numbers there. *)
  Definition total (cl : counter) : nat := fold_right Nat.add 0 (map snd cl).
  Definition often (frequent : nat) (cl : counter) (occurs : nat) : bool :=
    total cl * frequent <? occurs * 100 * length cl.
  Definition parcel_frequency (frequent : nat) (cl : counter) (main aux : list pystr) : list pystr * list pystr :=
    fold_left (fun (st : list pystr * list pystr) (kv : exemplar * nat) =>
      let '(main, aux) := st in
      let t := ex_text (fst kv) in
      if streq t [1600%N] then (main, sadd aux t)
      else if often frequent cl (snd kv) then (sadd main t, aux)
      else (main, sadd aux t)) cl (main, aux).

  (** ldml_exemplars.py:633-651; [toupper] is the ICU mapping of a string *)
  Definition make_index (toupper : pystr -> pystr) (main : list pystr) : res (list pystr) :=
    fold_left (fun r e =>
      do idx <- r;
      match e with
      | [] => Raise IndexError
      | c :: _ => Ok (if u_mark u c then idx else sadd idx (toupper e))
      end) main (Ok []).

  (** ldml_exemplars.py:653-660 *)
  Definition non_casing (upper lower : list pystr) : list (pystr * bool) :=
    let d := fold_left (fun d i => if smem i lower then d else dset streq d i true) upper [] in
    fold_left (fun d i => if smem i upper then d else dset streq d i false) lower d.

  Record classes := mkC {
    c_main : list pystr; c_aux : list pystr; c_index : list pystr; c_punct : list pystr;
    c_digits : list pystr; c_graphemes : list pystr; c_raw : counter; c_left : counter }.

  (** ldml_exemplars.py:420-437, the first time it is called *)
  Definition analyze (fuel many frequent : nat) (toupper : pystr -> pystr) (cl : counter) : res classes :=
    do (cl1, punct) <- find_punctuation cl [];
    let graphemes := graphemes_of cl1 in
    do (cl2, digits) <- find_numbers cl1 [];
    let bm := count_marks cl2 [] in
    do (cl3, _) <- split_loop fuel many bm cl2 [];
    let '(cl4, aux4) := parcel_marks bm cl3 [] in
    let '(cl5, aux5) := parcel_ignorable cl4 aux4 in
    let '(main, aux) := parcel_frequency frequent cl5 [] aux5 in
    do index <- make_index toupper main;
    Ok (mkC main aux index punct digits graphemes cl1 cl5).
End Exemplars.

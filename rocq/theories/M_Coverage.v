(** Model of the script that reports how much of the levels of CLDR each locale covers
    (/repo/scripts/sldrcoverage).
    Parameters: [rx p x] is whether the regular expression [p] followed by $ matches [x] from its
    start (every expression compiles); [source], [lookup] and [getdoc] give what the files and the
    list of language tags say about a locale. Percentages are exact fractions, not floats. *)
From Coq Require Import String QArith Qround.
From Verif Require Import Py.
Local Open Scope list_scope.
Local Open Scope nat_scope.

(** * The paths: lines 20-29. An element has its path (l.as_xpath), its text and its children *)
Inductive elem : Type := El (path : pystr) (text : option pystr) (kids : list elem).
(** e.text != "": a text of None is not "" *)
Definition text_ne (t : option pystr) : bool := match t with Some [] => false | _ => true end.
Fixpoint getxpaths (e : elem) : list pystr :=
  match e with
  | El path text kids =>
      let res := flat_map getxpaths kids in
      if text_ne text then [path] else res
  end.
(** set(...) *)
Definition add_set (s : list pystr) (x : pystr) : list pystr := if existsb (streq x) s then s else s ++ [x].
Definition to_set (l : list pystr) : list pystr := fold_left add_set l [].

(** * Substitutions in expressions: lines 47-50, 55-56 *)
Definition is_alnum (c : N) : bool :=
  (N.leb 65 c && N.leb c 90 || N.leb 97 c && N.leb c 122 || N.leb 48 c && N.leb c 57)%bool.
Fixpoint span (p : N -> bool) (s : pystr) : pystr * pystr :=
  match s with
  | c :: s' => if p c then let (a, b) := span p s' in (c :: a, b) else ([], s)
  | [] => ([], [])
  end.
(** %([a-zA-Z0-9_]+) at the start: the name and what follows *)
Definition var_at (s : pystr) : option (pystr * pystr) :=
  match s with
  | 37%N :: s' => match span (fun c => is_alnum c || N.eqb c 95)%bool s' with ([], _) => None | p => Some p end
  | _ => None
  end.
(** \$\{(Target-[a-zA-Z]+)\} at the start *)
Definition info_at (s : pystr) : option (pystr * pystr) :=
  match strip_prefix (lit "${Target-") s with
  | None => None
  | Some s' =>
      match span (fun c => is_alnum c && negb (N.leb 48 c && N.leb c 57))%bool s' with
      | (x :: n, 125%N :: rest) => Some (lit "Target-" ++ x :: n, rest)
      | _ => None
      end
  end.
(** re.sub with a function; a replacement that is not a string raises TypeError *)
Fixpoint sub (at_ : pystr -> option (pystr * pystr)) (f : pystr -> res pystr) (fuel : nat) (s : pystr) : res pystr :=
  match fuel with
  | O => Ok []
  | S fuel' =>
      match s with
      | [] => Ok []
      | c :: s' =>
          match at_ s with
          | Some (n, rest) => do a <- f n; do r <- sub at_ f fuel' rest; Ok (a ++ r)
          | None => do r <- sub at_ f fuel' s'; Ok (c :: r)
          end
      end
  end.
Definition vars_t : Type := list (pystr * pystr).
(** a value of info is a string or, from asregex, a list *)
Inductive ival : Type := IStr (s : pystr) | IList.
Definition dovar (vars : vars_t) (n : pystr) : res pystr := Ok (match dget streq vars n with Some v => v | None => [] end).
Definition doinfo (info : list (pystr * ival)) (n : pystr) : res pystr :=
  match dget streq info n with Some (IStr s) => Ok s | Some IList => Raise TypeError | None => Ok [] end.
Definition expand (vars : vars_t) (info : list (pystr * ival)) (c : pystr) : res pystr :=
  do ra <- sub var_at (dovar vars) (length c) c;
  sub info_at (doinfo info) (length ra) ra.
(** lines 31-37; the argument is '' or a list of calendars *)
Definition asregex (l : option (list pystr)) : ival :=
  match l with
  | None | Some [] => IStr []
  | Some [_] => IList
  | Some l => IStr (lit "(" ++ join (lit "|") l ++ lit ")")
  end.

Record ltag : Type := Lt { lang : option pystr; script : option pystr; region : option pystr }.
Record clevel : Type := Cl { inLanguage : option pystr; inScript : option pystr; inTerritory : option pystr; match_ : option pystr }.
Definition stats : Type := list (pystr * nat).
(** the levels by name, each expression with the attribute test of its object *)
Definition levels_t : Type := list (pystr * list (clevel * option pystr)).

Section Script.
Context (rx : pystr -> pystr -> bool).

(** * test_coverage: lines 46-62. The result is True or False and the new self.test; an exception
    leaves the script. *)
Definition check (vars : vars_t) (info : list (pystr * ival)) (p v : option pystr) : res bool :=
  match p with
  | None => Ok true
  | Some c =>
      do r <- expand vars info c;
      match v with None => Raise TypeError | Some v => Ok (rx r v) end
  end.
Definition test_coverage (lt : ltag) (vars : vars_t) (info : list (pystr * ival)) (c : clevel) : res (bool * option pystr) :=
  do a <- check vars info (inLanguage c) (lang lt);
  if negb a then Ok (false, None) else
  do b <- check vars info (inScript c) (script lt);
  if negb b then Ok (false, None) else
  do d <- check vars info (inTerritory c) (region lt);
  if negb d then Ok (false, None) else
  match match_ c with
  | None => Raise AttributeError
  | Some m => do r <- expand vars info m; Ok (true, Some r)
  end.
(** lines 64-65 *)
Definition test_xpath (test : option pystr) (x : pystr) : bool := match test with Some r => rx r x | None => false end.

(** * getstats: lines 110-123 with skip=False *)
Definition stat (st : stats) (m : pystr) : nat := match dget streq st m with Some n => n | None => 0 end.
Fixpoint count_level (lt : ltag) (xpaths : list pystr) (vars : vars_t) (info : list (pystr * ival)) (m : pystr)
    (cs : list (clevel * option pystr)) (st : stats) : res (stats * list (clevel * option pystr)) :=
  match cs with
  | [] => Ok (st, [])
  | (c, _) :: cs' =>
      do t <- test_coverage lt vars info c;
      let st' := if fst t then
                   fold_left (fun st x => if test_xpath (snd t) x then dset streq st m (stat st m + 1) else st) xpaths st
                 else st in
      do r <- count_level lt xpaths vars info m cs' st';
      Ok (fst r, (c, snd t) :: snd r)
  end.
Fixpoint getstats (only : option pystr) (lt : ltag) (xpaths : list pystr) (vars : vars_t) (info : list (pystr * ival))
    (levels : levels_t) (st : stats) : res (stats * levels_t) :=
  match levels with
  | [] => Ok (st, [])
  | (m, cs) :: levels' =>
      if match only with Some o => negb (streq o m) | None => false end then
        do r <- getstats only lt xpaths vars info levels' st;
        Ok (fst r, (m, cs) :: snd r)
      else
        do q <- count_level lt xpaths vars info m cs st;
        do r <- getstats only lt xpaths vars info levels' (fst q);
        Ok (fst r, (m, snd q) :: snd r)
  end.

(** * One locale: lines 89-108, 157-167 *)
Record world : Type := W {
  only : option pystr;                                   (* --level *)
  vars : vars_t;
  calendars : list (pystr * list pystr);                 (* calendar_prefs *)
  currencies : list (pystr * pystr);
  lookup : pystr -> option ltag;                         (* line 158-163: the tag of a locale *)
  getdoc : pystr -> option (pystr * elem) }.             (* getldml: the source attribute or "", the root. In fact line 102 finds no element, see C87, so it is always "" *)
Definition opt (o : option pystr) : pystr := match o with Some s => s | None => [] end.
(** info.get() of a value None: the match function of re.sub gives None, which is an empty
    replacement *)
Definition infos (w : world) (lt : ltag) : list (pystr * ival) :=
  [(lit "Target-Language", IStr (opt (lang lt)));
   (lit "Target-Scripts", IStr (opt (script lt)));
   (lit "Target-Territories", IStr (opt (region lt)));
   (lit "Target-Calendars", asregex (match region lt with Some r => dget streq (calendars w) r | None => None end));
   (lit "Target-TimeZones", IStr []);
   (lit "Target-Currencies", IStr (match region lt with Some r => opt (dget streq (currencies w) r) | None => [] end));
   (lit "Target-Plurals", IStr [])].
Definition kids_of (e : elem) : list elem := match e with El _ _ k => k end.
(** the second part is False (None) or the source *)
Definition locale_stats (w : world) (levels : levels_t) (loc : pystr) (lt : ltag) : res (stats * option pystr * levels_t) :=
  match getdoc w loc with
  | None => Ok ([], None, levels)
  | Some (src, root) =>
      if length (kids_of root) <? 2 then Ok ([], Some src, levels)
      else do r <- getstats (only w) lt (to_set (getxpaths root)) (vars w) (infos w lt) levels [];
           Ok (fst r, Some src, snd r)
  end.
Definition result : Type := pystr * stats * option pystr.
Definition doit (w : world) (levels : levels_t) (loc : pystr) : res (result * levels_t) :=
  match lookup w loc with
  | None => Ok ((loc, [], None), levels)
  | Some lt => do r <- locale_stats w levels loc lt; Ok ((loc, fst (fst r), snd (fst r)), snd r)
  end.
(** lines 173-175; with the pool each process has its own levels *)
Fixpoint do_all (w : world) (levels : levels_t) (locs : list pystr) : res (list result) :=
  match locs with
  | [] => Ok []
  | l :: locs' => do r <- doit w levels l; do rs <- do_all w (snd r) locs'; Ok (fst r :: rs)
  end.

(** * The table: lines 125, 177-183 *)
Definition levelnames : list pystr := [lit "core"; lit "posix"; lit "minimal"; lit "basic"; lit "moderate"; lit "modern"].
(** 100. * x.get(k, 0)/reseng.get(k) for k in levelnames *)
Fixpoint percents (eng st : stats) (ks : list pystr) : res (list Q) :=
  match ks with
  | [] => Ok []
  | k :: ks' =>
      match dget streq eng k with
      | None => Raise TypeError
      | Some e => do r <- percents eng st ks'; Ok (Qmake (100 * Z.of_nat (stat st k)) (Pos.of_nat e) :: r)
      end
  end.
Definition qsum (l : list Q) : Q := fold_right Qplus 0%Q l.
Fixpoint keys (eng : stats) (rs : list result) : res (list (list Q * result)) :=
  match rs with
  | [] => Ok []
  | r :: rs' => do p <- percents eng (snd (fst r)) levelnames; do l <- keys eng rs'; Ok ((p, r) :: l)
  end.
(** (-sum, name) <= (-sum, name) *)
Definition row_leb (a b : list Q * result) : bool :=
  let sa := qsum (fst a) in let sb := qsum (fst b) in
  if Qeq_bool sa sb then strleb (fst (fst (snd a))) (fst (fst (snd b))) else Qle_bool sb sa.
Definition row : Type := pystr * option pystr * list Q.
(** The rows after the heading, which is written first, and the exception if there is one. *)
Definition table (eng : stats) (rs : list result) : list row * option exn :=
  match keys eng rs with
  | Raise e => ([], Some e)
  | Ok ks =>
      (map (fun a => (fst (fst (snd a)), snd (snd a), fst a))
           (filter (fun a => match snd (fst (snd a)) with [] => false | _ => true end) (isort row_leb ks)), None)
  end.
(** lines 155-183, with one process. lookup('en') without an entry raises KeyError. The outer
    result is an exception before the output is opened. *)
Definition coverage (w : world) (levels : levels_t) (locs : list pystr) : res (list row * option exn) :=
  match lookup w (lit "en") with
  | None => Raise KeyError
  | Some lt =>
      do en <- locale_stats w levels (lit "en") lt;
      do rs <- do_all w (snd en) locs;
      Ok (table (fst (fst en)) rs)
  end.
End Script.

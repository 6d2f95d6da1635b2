(** Model of the script that publishes the SLDR (/repo/scripts/sldr-flat-publish.sh).
    Simplifications: the variables of the shell are strings and one that is not set is empty (the
    script asks for no difference); IFS has its default value; no word has characters that match
    file names (asterisk, question mark, bracket); what is printed is left out; every command that is run comes to an end. *)
From Verif Require Import Py.
Local Open Scope list_scope.

(** * Words *)
(** the characters of IFS *)
Definition ifs (c : N) : bool := (N.eqb c 32 || N.eqb c 9 || N.eqb c 10)%bool.
Fixpoint fsplit (s : pystr) : list pystr :=
  match s with
  | [] => [[]]
  | c :: s' =>
      if ifs c then [] :: fsplit s'
      else match fsplit s' with x :: r => (c :: x) :: r | [] => [[c]] end
  end.
(** field splitting of a word that is not in quotes *)
Definition fields (w : pystr) : list pystr := filter (fun x => match x with [] => false | _ => true end) (fsplit w).
(** ${s%%c*}: up to the first c *)
Fixpoint before (c : N) (s : pystr) : pystr :=
  match s with [] => [] | x :: s' => if N.eqb x c then [] else x :: before c s' end.
(** what follows the first c *)
Fixpoint after_opt (c : N) (s : pystr) : option pystr :=
  match s with [] => None | x :: s' => if N.eqb x c then Some s' else after_opt c s' end.
(** ${s#*c} *)
Definition after (c : N) (s : pystr) : pystr := match after_opt c s with Some r => r | None => s end.

(** * The options: lines 22-39 *)
Record conf : Type := Conf {
  skipflat : pystr; dryrun : pystr; prefix : pystr; timecmd : pystr; stage : pystr; iana : pystr; langtags : pystr }.
(** lines 22-25: only two of the variables get a value; the others are those of the environment *)
Definition start (env : conf) : conf :=
  Conf (skipflat env) (dryrun env) (lit "sysops.") (timecmd env) (lit "sldr") (iana env) (langtags env).
(** lines 29-34: None is help *)
Definition flag (c : N) (k : conf) : option conf :=
  if N.eqb c 115 then Some (Conf (lit "1") (dryrun k) (prefix k) (timecmd k) (stage k) (iana k) (langtags k))
  else if N.eqb c 100 then Some (Conf (skipflat k) (lit "--dry-run -i") (prefix k) (timecmd k) (stage k) (iana k) (langtags k))
  else if N.eqb c 112 then Some (Conf (skipflat k) (dryrun k) [] (timecmd k) (stage k) (iana k) (langtags k))
  else if N.eqb c 116 then Some (Conf (skipflat k) (dryrun k) (prefix k) (lit "/usr/bin/time -v") (stage k) (iana k) (langtags k))
  else if N.eqb c 83 then Some (Conf (skipflat k) (dryrun k) (prefix k) (timecmd k) (lit "sldr-staging") (iana k) (langtags k))
  else None.
(** lines 35-36 *)
Definition value (c : N) (v : pystr) (k : conf) : conf :=
  if N.eqb c 73 then Conf (skipflat k) (dryrun k) (prefix k) (timecmd k) (stage k) v (langtags k)
  else Conf (skipflat k) (dryrun k) (prefix k) (timecmd k) (stage k) (iana k) v.
(** the letters of one word that begins with a hyphen, and the words after it *)
Fixpoint cluster (cl : pystr) (args : list pystr) (k : conf) : option (conf * list pystr) :=
  match cl with
  | [] => Some (k, args)
  | c :: cl' =>
      if (N.eqb c 73 || N.eqb c 76)%bool then
        match cl' with
        | _ :: _ => Some (value c cl' k, args)
        | [] => match args with [] => None | v :: args' => Some (value c v k, args') end
        end
      else match flag c k with None => None | Some k' => cluster cl' args k' end
  end.
(** lines 27-39 (getopts): None is help *)
Fixpoint getopts (fuel : nat) (args : list pystr) (k : conf) : option (conf * list pystr) :=
  match fuel with
  | O => None
  | S f =>
      match args with
      | (45%N :: c :: cl) :: args' =>
          if streq (c :: cl) (lit "-") then Some (k, args')
          else match cluster (c :: cl) args' k with None => None | Some (k', a) => getopts f a k' end
      | _ => Some (k, args)
      end
  end.

(** * The target: lines 47-60 *)
Definition target (k : conf) (t : pystr) : pystr :=
  let site := before 58 t in
  let ducroot := after 58 t in
  let user := before 64 site in
  let host := after 64 site in
  match site with
  | [] => match t with 58%N :: t' => t' | _ => t end
  | _ =>
      let user' := if streq user host then [] else user in
      let ducroot' := if streq site ducroot then lit "/var/www/" ++ host ++ lit "/html" else ducroot in
      user' ++ (match user' with [] => [] | _ => lit "@" end) ++ prefix k ++ host ++ lit ":" ++ ducroot' ++ lit "/cms"
  end.

(** * The commands: lines 65-89, each a list of words that are not in quotes *)
Inductive stmt : Type := Run (ws : list pystr) | If (b : bool) (body : list (list pystr)).
Definition nonempty (s : pystr) : bool := match s with [] => false | _ => true end.
Definition rsync_opts : pystr := lit "-aP --no-p --no-g --no-t --compress --del".
Definition script (k : conf) (t : pystr) : list stmt :=
  let tg := target k t in
  [If (negb (nonempty (skipflat k)))
     [ [lit "rm"; lit "-fr"; lit "flat"];
       [timecmd k; lit "python3"; lit "bin/ldmlflatten"; lit "-o"; lit "flat"; lit "-i"; lit "sldr"; lit "-a"; lit "-A"; lit "-g"];
       [lit "rm"; lit "-fr"; lit "unflat"];
       [timecmd k; lit "python3"; lit "bin/ldmlflatten"; lit "-o"; lit "unflat"; lit "-i"; lit "sldr"; lit "-a"; lit "-c"; lit "-g"] ];
   Run [lit "rsync"; rsync_opts; dryrun k; lit "extras"; lit "sldr"; tg ++ lit "/local/ldml/" ++ stage k ++ lit "/"];
   Run [lit "rsync"; rsync_opts; dryrun k; lit "--chmod=Dug=rwx"; lit "flat"; lit "unflat"; tg ++ lit "/sites/s/ldml-api/data/" ++ stage k ++ lit "/"];
   If (nonempty (iana k)) [ [lit "rsync"; rsync_opts; dryrun k; iana k; tg ++ lit "/sites/s/ldml-api/data/IanaRegistry.txt"] ];
   If (nonempty (langtags k)) [ [lit "rsync"; rsync_opts; dryrun k; langtags k; tg ++ lit "/sites/s/ldml-api/data/langtags.txt"] ] ].

(** * Running: the shell has no -e. The state is the commands run and the last status; [status n] is
    the status the [n]th command ends with. *)
Definition state : Type := list (list pystr) * N.
Definition run_words (status : nat -> N) (s : state) (ws : list pystr) : state :=
  (fst s ++ [flat_map fields ws], status (length (fst s))).
Definition exec (status : nat -> N) (s : state) (p : stmt) : state :=
  match p with
  | Run ws => run_words status s ws
  | If true body => fold_left (run_words status) body s
  | If false _ => (fst s, 0%N)
  end.
(** the whole script: the commands run and the status of the script *)
Definition publish (env : conf) (args : list pystr) (status : nat -> N) : state :=
  match getopts (S (length args)) args (start env) with
  | None | Some (_, []) => ([], 1%N)
  | Some (k, t :: _) => fold_left (exec status) (script k t) ([], 0%N)
  end.

(** Model of the script that flattens many locales at once (/repo/scripts/ldmlflatten), with the
    pool of worker processes it uses: every order of the steps of the workers is possible. *)
From Coq Require Import String.
From Verif Require Import Py M_LdmlBase.
Local Open Scope list_scope.
Local Open Scope nat_scope.

(** * The locales: lines 49-60 *)
(** what os.listdir gives for one entry of an input directory: its name and, if it is a
    directory, the names in it *)
Notation dirlist := (list (pystr * option (list pystr))).
Definition dotxml : pystr := lit ".xml".
(** l[:-4] if l ends with .xml *)
Definition xml_name (l : pystr) : option pystr :=
  let n := length l - 4 in
  if (4 <=? length l) && streq (skipn n l) dotxml then Some (firstn n l) else None.
Definition add_set (s : list pystr) (l : pystr) : list pystr := if existsb (streq l) s then s else s ++ [l].
Definition add_entry (s : list pystr) (e : pystr * option (list pystr)) : list pystr :=
  match xml_name (fst e) with
  | Some l => add_set s l
  | None =>
      match snd e with
      | None => s
      | Some ts => fold_left (fun s t => match xml_name t with Some l => add_set s l | None => s end) ts s
      end
  end.
Definition all_locales (indirs : list dirlist) : list pystr :=
  isort strleb (fold_left (fun s d => fold_left add_entry d s) indirs []).

(** * Files: the content of each path *)
Notation store := (pystr -> option (list N)).
Definition put (s : store) (p : pystr) (c : list N) : store := fun q => if streq q p then Some c else s q.
(** write() on a file opened with "w": the bytes go to the position of that file object; what is
    between the end of the file and the position reads as zeros *)
Definition overwrite (f : list N) (pos : nat) (b : list N) : list N :=
  firstn pos f ++ repeat 0%N (pos - length f) ++ b ++ skipn (pos + length b) f.
Definition content (s : store) (p : pystr) : list N := match s p with Some f => f | None => [] end.

Notation result := (bool * pystr * option exn)%type.   (* (True or False, locale, message); None is "" *)
Inductive outcome : Type :=
| Verdict (r : result)                                  (* returns without writing *)
| Crash (x : exn)                                       (* raises before a file is opened *)
| Output (p : pystr) (pieces : list (list N)) (x : option exn).  (* opens p, writes, then returns or raises *)

Section Driver.
  Variable D : Type.                                    (* LdmlMerge documents *)
  (** flattenlocale with the arguments given by the options; the bool is flattencollation. It is
      taken to depend on the files alone: what it keeps in the process are the parent locales, and of
      them only the entry of the locale itself is used (C35_not_transitive, C35_again). *)
  Variable flatten : store -> bool -> pystr -> res (option D).
  Variable revid : option pystr.                        (* --revid *)
  Variable git : bool.                                  (* --git *)
  Variable git_log : D -> res pystr.                    (* subprocess.check_output(..).decode() *)
  Variable add_revid : pystr -> D -> res D.             (* add_silidentity(revid = ..) *)
  Variable alphadir : bool.
  Variable outdir : option pystr.
  Variable lower : N -> pystr.
  Variable write : D -> list (list N) * option exn.     (* normalise, serialize_xml: pieces as they reach the file *)

  (** lines 108-115 *)
  Definition dogit (d : D) : res pystr :=
    do log <- git_log d;
    match split_on 10%N log with
    | [rev; _] => Ok rev
    | _ => Raise ValueError
    end.
  (** lines 89-92; an empty --revid counts as none *)
  Definition identify (d : D) : res D :=
    match revid with
    | Some (c :: r) => add_revid (c :: r) d
    | _ => if git then do r <- dogit d; add_revid r d else Ok d
    end.
  (** lines 93-96 *)
  Definition out_path (l : pystr) : res pystr :=
    if alphadir then
      match l with
      | [] => Raise IndexError
      | c :: _ => match outdir with
                  | None => Raise TypeError
                  | Some o => Ok (path_join (path_join o (lower c)) (l ++ dotxml))
                  end
      end
    else match outdir with
         | None => Raise TypeError
         | Some o => Ok (path_join o (l ++ dotxml))
         end.
  (** doit, lines 68-106, up to the opening of the output. Simplified: making the directory
      (exist_ok) always works. *)
  Definition begin (single : bool) (s : store) (l : pystr) : outcome :=
    match flatten s single l with
    | Raise x => if single then Crash x else Verdict (false, l, Some x)
    | Ok None => Verdict (false, l, None)
    | Ok (Some d) =>
        match identify d with
        | Raise x => Crash x
        | Ok d => match out_path l with
                  | Raise x => Crash x
                  | Ok p => let w := write d in
                            match w with (pieces, x) => Output p pieces x end
                  end
        end
    end.

  (** * One process: line 126 *)
  (** nothing else writes, so the pieces arrive one after the other *)
  Fixpoint single_run (s : store) (ls : list pystr) (rs : list result) : store * res (list result) :=
    match ls with
    | [] => (s, Ok rs)
    | l :: ls' =>
        match begin true s l with
        | Verdict r => single_run s ls' (rs ++ [r])
        | Crash x => (s, Raise x)
        | Output p pieces x =>
            let s := put s p (concat pieces) in
            match x with
            | Some x => (s, Raise x)
            | None => single_run s ls' (rs ++ [(true, l, None)])
            end
        end
    end.

  (** * The pool: lines 120-124 *)
  (** what a worker does with one batch of locales: list(map(doit, batch)). [b_next] is the number of
      locales it is through with; [b_cur] the output it works on: path, position once opened, the
      pieces still to write, how it ends. *)
  Record batch := Batch {
    b_items : list pystr;
    b_next : nat;
    b_cur : option (pystr * pystr * option nat * list (list N) * option exn);
    b_results : list result;
    b_failed : option exn }.
  Definition new_batch (items : list pystr) : batch := Batch items 0 None [] None.
  Definition finished (b : batch) : bool :=
    match b_failed b, b_cur b with
    | Some _, _ => true
    | None, Some _ => false
    | None, None => length (b_items b) <=? b_next b
    end.
  (** one step of the worker that has the batch *)
  Definition step (s : store) (b : batch) : store * batch :=
    match b with
    | Batch _ _ _ _ (Some _) => (s, b)
    | Batch items n None rs None =>
        match nth_error items n with
        | None => (s, b)
        | Some l =>
            match begin false s l with
            | Verdict r => (s, Batch items (S n) None (rs ++ [r]) None)
            | Crash x => (s, Batch items (S n) None rs (Some x))
            | Output p pieces x => (s, Batch items n (Some (l, p, None, pieces, x)) rs None)
            end
        end
    | Batch items n (Some (l, p, None, pieces, x)) rs None =>
        (put s p [], Batch items n (Some (l, p, Some 0, pieces, x)) rs None)
    | Batch items n (Some (l, p, Some pos, c :: cs, x)) rs None =>
        (put s p (overwrite (content s p) pos c), Batch items n (Some (l, p, Some (pos + length c), cs, x)) rs None)
    | Batch items n (Some (l, p, Some pos, [], Some x)) rs None => (s, Batch items (S n) None rs (Some x))
    | Batch items n (Some (l, p, Some pos, [], None)) rs None =>
        (s, Batch items (S n) None (rs ++ [(true, l, None)]) None)
    end.
  (** the state of the pool: files, batches, and the first exception reported *)
  Record pool := Pool { files : store; batches : list batch; first_exn : option exn }.
  Definition replace_batch (i : nat) (b : batch) (bs : list batch) : list batch :=
    firstn i bs ++ b :: skipn (S i) bs.
  (** the worker of batch [i] makes a step *)
  Definition pool_step (P : pool) (i : nat) : pool :=
    match nth_error (batches P) i with
    | None => P
    | Some b =>
        let r := step (files P) b in
        Pool (fst r) (replace_batch i (snd r) (batches P))
             (match first_exn P, b_failed (snd r) with
              | None, Some x => Some x
              | e, _ => e
              end)
    end.
  (** Pool.map_async: how the locales are divided among [n] processes *)
  Definition chunk_size (n len : nat) : nat :=
    len / (n * 4) + (if len mod (n * 4) =? 0 then 0 else 1).
  Fixpoint chunks (fuel size : nat) (l : list pystr) : list (list pystr) :=
    match fuel, l with
    | S fuel, _ :: _ => firstn size l :: chunks fuel size (skipn size l)
    | _, _ => []
    end.
  Definition divide (n : nat) (l : list pystr) : list (list pystr) := chunks (length l) (chunk_size n (length l)) l.
  Definition start (s : store) (n : nat) (ls : list pystr) : pool := Pool s (map new_batch (divide n ls)) None.
  (** the pool after the workers made steps in the order [sched] *)
  Definition run (P : pool) (sched : list nat) : pool := fold_left pool_step sched P.
  Definition all_finished (P : pool) : Prop := forall b, In b (batches P) -> finished b = true.
  (** MapResult: get() once all batches are finished *)
  Definition get (P : pool) : res (list result) :=
    match first_exn P with
    | Some x => Raise x
    | None => Ok (flat_map b_results (batches P))
    end.
  (** lines 127-128: the locales reported, with their messages *)
  Definition reported (rs : list result) : list (pystr * option exn) :=
    map (fun r : result => (snd (fst r), snd r)) (filter (fun r : result => negb (fst (fst r))) rs).
End Driver.

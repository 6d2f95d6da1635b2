(** Model of the font rules: scripts/fontrules (fontid 10-12, treerules 36-53, simplerules 55-127,
    the choice of a font 169-179, the rules written 198-217) and scripts/fontmatch (match1 7-19).
    Simplifications: the decision tree that scikit-learn makes is given; a feature "lang_aa" is
    the pair of its name and its value, so the values have no "_"; every leaf has a result
    (line 27 gives one to each leaf that a sample reaches); the single value of a condition and a
    list of one value are the same, but for the sort key (below); the result of a rule is kept as
    the text of fontid, which is split into font and features only in the sort key. *)
From Coq Require Import String.
From Verif Require Import Py.
Local Open Scope list_scope.
Local Open Scope nat_scope.

(** fontrules:12 fontid: the features that do not end in "=0", sorted; [ws] is str.split's space *)
Section FontId.
Variable words : pystr -> list pystr.         (* str.split() *)
Fixpoint ends_zero (s : pystr) : bool :=
  match s with
  | [] => false
  | [_] => false
  | [a; b] => (N.eqb a 61 && N.eqb b 48)%bool
  | _ :: s' => ends_zero s'
  end.
Definition fontid (s feat : pystr) : pystr :=
  s ++ lit "|" ++ join (lit " ") (isort strleb (filter (fun f => negb (ends_zero f)) (words feat))).
End FontId.

(** fontrules:169-179: the fonts of a document: name, types, features *)
Record font := mkFont { f_name : pystr; f_types : pystr; f_feats : pystr }.
(** [p in s] for strings *)
Fixpoint occurs (p s : pystr) : bool :=
  (startswith p s || match s with [] => false | _ :: s' => occurs p s' end)%bool.
Fixpoint pick_font (words : pystr -> list pystr) (fs : list font) (fallback : option pystr) : option pystr :=
  match fs with
  | [] => fallback
  | f :: fs' =>
      if streq (f_types f) [] then pick_font words fs' (Some (fontid words (f_name f) (f_feats f)))
      else if occurs (lit "default") (f_types f) then Some (fontid words (f_name f) (f_feats f))
      else pick_font words fs' fallback
  end.

(** a feature: "lang", "scr" or "reg" with its value, which may be empty *)
Notation feat := (pystr * pystr)%type.
Definition feateq (a b : feat) : bool := (streq (fst a) (fst b) && streq (snd a) (snd b))%bool.

(** the decision tree: at a node without the feature to the left, with it to the right *)
Inductive dtree := Leaf (v : pystr) | Node (f : feat) (l r : dtree).

(** fontrules:36-53 treerules *)
Fixpoint treerules (t : dtree) (feats : list feat) : list (pystr * list feat) :=
  match t with
  | Leaf v => [(v, feats)]
  | Node f l r => treerules l feats ++ treerules r (feats ++ [f])
  end.

(** frozensets of features *)
Definition subset (a b : list feat) : bool := forallb (fun x => existsb (feateq x) b) a.
Definition seteq (a b : list feat) : bool := (subset a b && subset b a)%bool.

(** itertools.combinations *)
Fixpoint combinations {A} (l : list A) (n : nat) : list (list A) :=
  match n, l with
  | O, _ => [[]]
  | S _, [] => []
  | S n', x :: l' => map (cons x) (combinations l' n') ++ combinations l' n
  end.

Definition already := list (list feat * pystr).
(** fontrules:69-73: one combination *)
Definition skip_one (al : already) (v : pystr) (skipme : option bool) (y : list feat) : option bool :=
  match dget seteq al y with
  | Some c => if streq c v then (match skipme with Some false => Some false | _ => Some true end) else Some false
  | None => skipme
  end.
(** fontrules:66-75: [n] is the next i of range(len(f)-1, 0, -1) *)
Fixpoint skip_loop (al : already) (v : pystr) (f : list feat) (n : nat) (skipme : option bool) : option bool :=
  match n with
  | O => skipme
  | S n' =>
      let s := fold_left (skip_one al v) (combinations f n) skipme in
      match s with Some false => s | _ => skip_loop al v f n' s end
  end.

(** a rule: for each feature name the values that match *)
Notation rule := (list (pystr * list pystr)).
(** fontrules:90-94 *)
Fixpoint multi (k : rule) : option pystr :=
  match k with
  | [] => None
  | (i, kx) :: k' => if Nat.ltb 1 (length kx) then Some i else multi k'
  end.
(** fontrules:96-111: None is the score -1 after a break; k[i][0] of an empty list cannot occur *)
Fixpoint score_loop (k : rule) (f : list feat) (mindex : option pystr) (score : nat) : option nat :=
  match f with
  | [] => Some score
  | (i, vv) :: f' =>
      if match mindex with Some m => streq i m | None => false end then
        score_loop k f' mindex (match dget streq k i with
                                | Some l => if existsb (streq vv) l then score + 1 else score
                                | None => score
                                end)
      else match dget streq k i with
           | None => None
           | Some l => if match l with x :: _ => streq vv x | [] => false end then score_loop k f' mindex (score + 1)
                       else match mindex with None => score_loop k f' (Some i) score | Some _ => None end
           end
  end.
(** fontrules:87-88, 113-114 *)
Definition rule_score (k : rule) (f : list feat) : option nat :=
  if Nat.eqb (length f) (length k) then
    match score_loop k f (multi k) 0 with
    | Some s => if Nat.ltb (s + 1) (length k) then None else Some s
    | None => None
    end
  else None.
(** fontrules:83-117: the position of the best rule and its score *)
Fixpoint best_rule (ks : list rule) (f : list feat) (pos : nat) (best : option (nat * nat)) : option (nat * nat) :=
  match ks with
  | [] => best
  | k :: ks' =>
      best_rule ks' f (S pos)
        (match rule_score k f, best with
         | Some s, None => Some (pos, s)
         | Some s, Some (_, bs) => if Nat.ltb bs s then Some (pos, s) else best
         | None, _ => best
         end)
  end.
(** fontrules:120-122; the names in [f] are distinct, so dict() changes nothing *)
Definition add_value (k : rule) (x : feat) : rule :=
  match dget streq k (fst x) with
  | Some l => if (existsb (streq (snd x)) l || streq (snd x) [])%bool then k else dset streq k (fst x) (l ++ [snd x])
  | None => k
  end.
Definition merge_rule (k : rule) (f : list feat) : rule := fold_left add_value f k.
Fixpoint update {A} (l : list A) (n : nat) (g : A -> A) : list A :=
  match l, n with
  | [], _ => []
  | x :: l', O => g x :: l'
  | x :: l', S n' => x :: update l' n' g
  end.
(** fontrules:125 *)
Definition new_rule (f : list feat) : rule := fold_left (fun k x => dset streq k (fst x) [snd x]) f [].

Record sstate := mkS { s_already : already; s_vals : list (pystr * list rule) }.
(** fontrules:62-125: one leaf of the tree *)
Definition simple_step (st : sstate) (vs : pystr * list feat) : sstate :=
  let '(v, s) := vs in
  let f := filter (fun x => negb (streq (snd x) [])) s in
  match skip_loop (s_already st) v f (length f - 1) None with
  | Some true => st
  | _ =>
      let al := dset seteq (s_already st) f v in
      match dget streq (s_vals st) v with
      | Some ks =>
          match best_rule ks f 0 None with
          | Some (p, _) => mkS al (dset streq (s_vals st) v (update ks p (fun k => merge_rule k f)))
          | None => mkS al (dset streq (s_vals st) v (ks ++ [new_rule f]))
          end
      | None => mkS al (dset streq (s_vals st) v [new_rule f])
      end
  end.
Definition simplerules (t : dtree) : list (pystr * list rule) :=
  s_vals (fold_left simple_step (treerules t []) (mkS [] [])).

(** fontrules:198-210: the rules that are written; those without a condition are left out *)
Definition made (vals : list (pystr * list rule)) : list (pystr * rule) :=
  filter (fun r => negb (Nat.eqb (length (snd r)) 0))
    (flat_map (fun vk => map (fun r => (fst vk,
        filter (fun b => match snd b with [] => false | [x] => negb (streq x []) | _ => true end)
          (isort (fun a b => strleb (fst a) (fst b)) r))) (snd vk)) vals).
(** fontrules:216-217: the sort key. k.split("|") gives font and features; the first value of a
    condition, or its first character if there is only one value *)
Definition first_of (m : rule) (k : pystr) : pystr :=
  match dget streq m k with
  | Some [x] => firstn 1 x
  | Some (x :: _) => x
  | _ => []
  end.
Definition rule_key (r : pystr * rule) : list pystr :=
  let bits := split_on 124 (fst r) in
  [nth 0 bits []; nth 1 bits []; first_of (snd r) (lit "scr"); first_of (snd r) (lit "reg")].
Definition keyleb (a b : pystr * rule) : bool :=
  if Nat.eqb (length (snd a)) (length (snd b))
  then match lcmp strcmp (rule_key a) (rule_key b) with Gt => false | _ => true end
  else Nat.ltb (length (snd b)) (length (snd a)).
Definition written (t : dtree) : list (pystr * rule) := isort keyleb (made (simplerules t)).

(** fontmatch:7-19 match1: [tag] gives the subtag for a feature name *)
Fixpoint match1 (rules : list (pystr * rule)) (tag : pystr -> option pystr) : option pystr :=
  match rules with
  | [] => None
  | (v, m) :: rules' =>
      if forallb (fun kv => match tag (fst kv) with Some x => existsb (streq x) (snd kv) | None => false end) m
      then Some v else match1 rules' tag
  end.

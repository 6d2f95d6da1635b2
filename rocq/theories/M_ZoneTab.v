(** Model of the order of time zones: scripts/zonetab, which makes tzones.csv, and
    Ldml.ReadTZData (lib/sldr/ldml.py 401-412), which reads it.
    Simplifications: angles are whole numbers of seconds of arc, so that floating point
    rounding is left out; \d is an ASCII digit; [gfmt] is the text of an angle ({:g}). *)
From Coq Require Import String ZArith.
From Verif Require Import Py.
From Verif Require M_Collation M_LdmlBase.
Local Open Scope list_scope.
Local Open Scope nat_scope.

(** the value of a string of digits *)
Definition decnum (s : pystr) : Z := fold_left (fun a c => 10 * a + (Z.of_N c - 48))%Z s 0%Z.

(** zonetab:49: [n] digits *)
Definition digits (n : nat) (s : pystr) : option (pystr * pystr) :=
  if (Nat.eqb (length (firstn n s)) n && forallb is_digit (firstn n s))%bool then Some (firstn n s, skipn n s) else None.

(** the groups of one coordinate: whether the sign is "-", degrees, minutes, seconds *)
Record coord := mkCoord { c_neg : bool; c_deg : pystr; c_min : pystr; c_sec : option pystr }.
(** zonetab:49: one half of the expression, all ways to match in the order of backtracking *)
Definition coords (s : pystr) : list (coord * pystr) :=
  match s with
  | c :: s' =>
      if (N.eqb c 43 || N.eqb c 45)%bool then
        flat_map (fun n =>
          match digits n s' with
          | Some (d, r) =>
              match digits 2 r with
              | Some (m, r2) =>
                  match digits 2 r2 with Some (x, r3) => [(mkCoord (N.eqb c 45) d m (Some x), r3)] | None => [] end
                  ++ [(mkCoord (N.eqb c 45) d m None, r2)]
              | None => []
              end
          | None => []
          end) [3; 2]
      else []
  | [] => []
  end.
Definition position (s : pystr) : option (coord * coord) :=
  match flat_map (fun a => map (fun b => (fst a, fst b)) (coords (snd a))) (coords s) with
  | x :: _ => Some x
  | [] => None
  end.

(** zonetab:7-12 latlongdeg *)
Definition latlongdeg (c : coord) : Z :=
  ((if c_neg c then - decnum (c_deg c) else decnum (c_deg c)) * 3600
   + decnum (c_min c) * 60 + match c_sec c with Some s => decnum s | None => 0 end)%Z.

(** zonetab:14-33 *)
Definition fixzones : list (pystr * pystr) :=
  [(lit "America/Atikokan", lit "America/Coral_Harbour");
   (lit "America/Argentina/Buenos_Aires", lit "America/Buenos_Aires");
   (lit "America/Argentina/Catamarca", lit "America/Catamarca");
   (lit "America/Argentina/Cordoba", lit "America/Cordoba");
   (lit "America/Argentina/Jujuy", lit "America/Jujuy");
   (lit "America/Argentina/Mendoza", lit "America/Mendoza");
   (lit "America/Nuuk", lit "America/Godthab");
   (lit "America/Kentucky/Louisville", lit "America/Louisville");
   (lit "America/Indiana/Indianapolis", lit "America/Indianapolis");
   (lit "Africa/Asmara", lit "Africa/Asmera");
   (lit "Atlantic/Faroe", lit "Atlantic/Faeroe");
   (lit "Asia/Kolkata", lit "Asia/Calcutta");
   (lit "Asia/Ho_Chi_Minh", lit "Asia/Saigon");
   (lit "Asia/Yangon", lit "Asia/Rangoon");
   (lit "Asia/Kathmandu", lit "Asia/Katmandu");
   (lit "Pacific/Pohnpei", lit "Pacific/Ponape");
   (lit "Pacific/Chuuk", lit "Pacific/Truk");
   (lit "Pacific/Honolulu", lit "Pacific/Johnston")].

(** a row: the country, and the position if there is one *)
Notation row := (pystr * option (Z * Z))%type.

Section Zones.
Variable ws : N -> bool.

(** re.sub(r"#.*$", "", s) for one line *)
Fixpoint cut_comment (s : pystr) : pystr :=
  match s with [] => [] | c :: s' => if N.eqb c 35 then [] else c :: cut_comment s' end.

(** zonetab:43-53 *)
Definition zone_line (results : list (pystr * row)) (l : pystr) : list (pystr * row) :=
  match split_on 9 (cut_comment (M_Collation.strip ws l)) with
  | c :: p :: z :: _ =>
      let key := match dget streq fixzones z with Some k => k | None => z end in
      dset streq results key (c, match position p with
                                 | Some (a, b) => Some (latlongdeg a, latlongdeg b)
                                 | None => None
                                 end)
  | _ => results
  end.
(** zonetab:54-61; "{:+d}" *)
Definition gmt_name (i : Z) : pystr :=
  lit "Etc/GMT" ++ (if Z.ltb i 0 then lit "-" else lit "+") ++ M_LdmlBase.decstr (Z.abs_nat i).
Definition gmt_row (i : Z) : row :=
  let longitude := (i * 15)%Z in
  (lit "001", Some (0, (if Z.leb longitude 180 then longitude + 360 else longitude) * 3600))%Z.
Definition gmt_range : list Z := map (fun n => Z.of_nat n - 14)%Z (seq 0 27).
Definition add_gmt (results : list (pystr * row)) : list (pystr * row) :=
  fold_left (fun r i => dset streq r (gmt_name i) (gmt_row i)) gmt_range results.
(** zonetab:62-63 *)
Definition add_utc (results : list (pystr * row)) : list (pystr * row) :=
  dset streq (dset streq results (lit "Etc/Unknown") (lit "001", Some (0, 0)%Z)) (lit "Etc/UTC") (lit "001", Some (0, 0)%Z).
Definition zones (lines : list pystr) : list (pystr * row) :=
  add_utc (add_gmt (fold_left zone_line lines [])).

(** zonetab:66: lists compare item by item, a shorter one first *)
Definition poscmp (a b : option (Z * Z)) : comparison :=
  match a, b with
  | None, None => Eq
  | None, Some _ => Lt
  | Some _, None => Gt
  | Some (x, y), Some (x', y') => match Z.compare x x' with Eq => Z.compare y y' | c => c end
  end.
Definition zonecmp (a b : pystr * row) : comparison :=
  match strcmp (fst (snd a)) (fst (snd b)) with
  | Eq => match poscmp (snd (snd a)) (snd (snd b)) with Eq => strcmp (fst a) (fst b) | c => c end
  | c => c
  end.
Definition zoneleb (a b : pystr * row) : bool := match zonecmp a b with Gt => false | _ => true end.

Variable gfmt : Z -> pystr.
(** zonetab:65-67: the lines written, and the exception if a row has no position *)
Fixpoint write_zones (rs : list (pystr * row)) : list pystr * option exn :=
  match rs with
  | [] => ([], None)
  | (k, (c, Some (a, b))) :: rs' =>
      let r := write_zones rs' in
      ((k ++ lit ", " ++ c ++ lit ", " ++ gfmt a ++ lit ", " ++ gfmt b ++ [10%N]) :: fst r, snd r)
  | (_, (_, None)) :: _ => ([], Some IndexError)
  end.
Definition zonetab (lines : list pystr) : list pystr * option exn := write_zones (isort zoneleb (zones lines)).

(** ldml.py:407-410: the text before the first match of \s*,\s* *)
Definition tz_name (l : pystr) : pystr :=
  match split_on 44 (cut_comment (M_Collation.strip ws l)) with
  | [x] => x
  | x :: _ => M_Collation.rstrip ws x
  | [] => []
  end.
(** the [n] low digits of [v] *)
Fixpoint decpad (n : nat) (v : N) : pystr :=
  match n with
  | O => []
  | S n' => decpad n' (v / 10) ++ [(48 + v mod 10)%N]
  end.
(** ldml.py:411: int(log10(n) + 1.) is the number of digits of n *)
Definition ndig (n : nat) : nat := length (M_LdmlBase.decstr n).
(** ldml.py:411-412 (and 367-368): numbers for a list of values, as many digits as the count has;
    the last of equal values counts *)
Definition enum_keys (vals : list pystr) : list (pystr * pystr) :=
  fold_left (fun d iv => dset streq d (snd iv) (decpad (ndig (length vals)) (N.of_nat (fst iv) + 1)))
    (combine (seq 0 (length vals)) vals) [].
(** ldml.py:404-412: the sort key of each zone; the logarithm of 0 is a ValueError *)
Definition read_tz (lines : list pystr) : res (list (pystr * pystr)) :=
  match map tz_name lines with
  | [] => Raise ValueError
  | vals => Ok (enum_keys vals)
  end.
End Zones.

(** C73: the order of time zones. *)
From Coq Require Import String ZArith Permutation Sorted Lia.
From Verif Require Import Py PyFacts M_ZoneTab.
From Verif Require M_Collation M_LdmlBase T_Collation2 P_AsICU.
Local Open Scope list_scope.
Local Open Scope nat_scope.

(** Positions, read the ISO 6709 way *)
Definition is_sign (c : N) : Prop := c = 43%N \/ c = 45%N.
Definition digs (n : nat) (s : pystr) : Prop := length s = n /\ Forall (fun c => 48 <= c <= 57)%N s.

Lemma digs_digits n s r : digs n s -> digits n (s ++ r) = Some (s, r).
Proof.
  intros [L F]. unfold digits. rewrite firstn_app, <- L, firstn_all, Nat.sub_diag, firstn_O, app_nil_r, Nat.eqb_refl.
  rewrite skipn_app, skipn_all, Nat.sub_diag. cbn [skipn app andb].
  replace (forallb is_digit s) with true; [reflexivity|]. symmetry. apply forallb_forall. intros c Hc.
  rewrite Forall_forall in F. specialize (F c Hc). unfold is_digit. apply andb_true_iff. split; apply N.leb_le; lia.
Qed.
Lemma digits_stop n a c r : length a < n -> is_digit c = false -> digits n (a ++ c :: r) = None.
Proof.
  intros L C. unfold digits. replace (forallb is_digit (firstn n (a ++ c :: r))) with false; [now rewrite andb_false_r|].
  symmetry. apply not_true_is_false. intros F. rewrite forallb_forall in F. rewrite F in C; [discriminate|].
  rewrite firstn_app. apply in_app_iff. right. destruct (n - length a) eqn:E; [lia|]. now left.
Qed.
Lemma digits_short n s : length s < n -> digits n s = None.
Proof.
  intros L. unfold digits. rewrite firstn_all2 by lia. destruct (Nat.eqb_spec (length s) n); [lia|reflexivity].
Qed.
Lemma sign_notdigit c : is_sign c -> is_digit c = false.
Proof. intros [-> | ->]; reflexivity. Qed.
Lemma sign_or c : is_sign c -> (N.eqb c 43 || N.eqb c 45)%bool = true.
Proof. intros [-> | ->]; reflexivity. Qed.

(** The groups found in a position *)
Definition groups (sg : N) (d m : pystr) (x : option pystr) : coord := mkCoord (N.eqb sg 45) d m x.
Definition stops (r : pystr) : Prop := match r with [] => True | c :: _ => is_digit c = false end.
Definition secs (x : option pystr) : pystr := match x with Some s => s | None => [] end.

Lemma digits_stops n a r : length a < n -> stops r -> digits n (a ++ r) = None.
Proof.
  intros L S. destruct r as [|c r]; [rewrite app_nil_r; now apply digits_short|]. now apply digits_stop.
Qed.

(** a coordinate of [k] degree digits: the first way to match is the one meant, unless the
    degrees have two digits and there are seconds *)
Lemma coords_first sg k d m x r : is_sign sg -> (k = 3 \/ k = 2 /\ x = None) -> digs k d -> digs 2 m ->
  (forall s, x = Some s -> digs 2 s) -> stops r ->
  exists l, coords (sg :: d ++ m ++ secs x ++ r) = (groups sg d m x, r) :: l.
Proof.
  intros S K D M X R. unfold coords. rewrite (sign_or _ S). cbn [flat_map].
  assert (One : forall k', digs k' d ->
    match digits k' (d ++ m ++ secs x ++ r) with
    | Some (d0, r0) => match digits 2 r0 with
      | Some (m0, r2) => match digits 2 r2 with Some (x0, r3) => [(mkCoord (N.eqb sg 45) d0 m0 (Some x0), r3)] | None => [] end ++ [(mkCoord (N.eqb sg 45) d0 m0 None, r2)]
      | None => [] end
    | None => [] end = match x with Some s => [(groups sg d m x, r); (groups sg d m None, s ++ r)] | None => [(groups sg d m x, r)] end).
  { intros k' D'. rewrite digs_digits by exact D'. rewrite digs_digits by exact M. destruct x as [s|]; cbn [secs app].
    - rewrite digs_digits by (apply X; reflexivity). reflexivity.
    - pose proof (digits_stops 2 [] r ltac:(cbn; lia) R) as S0. cbn [app] in S0. rewrite S0. reflexivity. }
  destruct K as [-> | [-> ->]].
  - rewrite (One 3 D). destruct x; eexists; cbn [app]; reflexivity.
  - rewrite (One 2 D). cbn [secs app].
    assert (E3 : match digits 3 (d ++ m ++ r) with
      | Some (d0, r0) => match digits 2 r0 with
        | Some (m0, r2) => match digits 2 r2 with Some (x0, r3) => [(mkCoord (N.eqb sg 45) d0 m0 (Some x0), r3)] | None => [] end ++ [(mkCoord (N.eqb sg 45) d0 m0 None, r2)]
        | None => [] end
      | None => [] end = []).
    { destruct D as [LD FD], M as [LM FM]. destruct d as [|d1 [|d2 [|]]]; try discriminate. destruct m as [|m1 [|m2 [|]]]; try discriminate.
      change ([d1; d2] ++ [m1; m2] ++ r) with ([d1; d2; m1] ++ ([m2] ++ r)). rewrite digs_digits.
      - rewrite (digits_stops 2 [m2] r); [reflexivity|cbn; lia|exact R].
      - split; [reflexivity|]. inversion FD as [|? ? A B]; inversion B; inversion FM; subst. repeat constructor; lia. }
    rewrite E3. cbn [app]. eexists; reflexivity.
Qed.
(** latitudes of two degree digits with seconds: three digits are tried first, and fail at the sign *)
Lemma coords_lat sg d m s r : is_sign sg -> digs 2 d -> digs 2 m -> digs 2 s -> stops r -> 
  exists d' m' r', coords (sg :: d ++ m ++ s ++ r) =
     (mkCoord (N.eqb sg 45) d' m' None, r') :: (groups sg d m (Some s), r) :: [(groups sg d m None, s ++ r)] /\ 
     (exists c q, r' = c :: q /\ is_digit c = true).
Proof.
  intros S D M X R. unfold coords. rewrite (sign_or _ S). cbn [flat_map].
  rewrite (digs_digits 2 d (m ++ s ++ r) D), (digs_digits 2 m (s ++ r) M), (digs_digits 2 s r X).
  destruct D as [LD FD], M as [LM FM], X as [LS FS].
  destruct d as [|d1 [|d2 [|]]]; try discriminate. destruct m as [|m1 [|m2 [|]]]; try discriminate.
  destruct s as [|s1 [|s2 [|]]]; try discriminate.
  inversion FD as [|? ? A1 A2]; inversion A2; inversion FM as [|? ? B1 B2]; inversion B2; inversion FS as [|? ? C1 C2]; inversion C2; subst.
  change ([d1; d2] ++ [m1; m2] ++ [s1; s2] ++ r) with ([d1; d2; m1] ++ ([m2; s1] ++ ([s2] ++ r))).
  rewrite digs_digits by (split; [reflexivity|repeat constructor; lia]). rewrite digs_digits by (split; [reflexivity|repeat constructor; lia]).
  rewrite (digits_stops 2 [s2] r); [|cbn; lia|exact R].
  exists [d1; d2; m1], [m2; s1], ([s2] ++ r). split; [reflexivity|]. exists s2, r. split; [reflexivity|].
  unfold is_digit. apply andb_true_iff. split; apply N.leb_le; lia.
Qed.
Lemma coords_digit c q : is_digit c = true -> coords (c :: q) = [].
Proof.
  intros D. unfold coords. assert (E : (N.eqb c 43 || N.eqb c 45)%bool = false); [|now rewrite E].
  unfold is_digit in D. apply andb_true_iff in D. destruct D as [A B]. apply N.leb_le in A. apply N.leb_le in B.
  apply orb_false_iff. split; apply N.eqb_neq; lia.
Qed.

(** An ISO 6709 position as zone.tab has it: a latitude of two degree digits, a longitude of
    three, both with seconds or without. All that follows must not start with a digit. *)
Theorem C73_position : forall sg d m x sg' d' m' x' r, is_sign sg -> is_sign sg' ->
  digs 2 d -> digs 2 m -> digs 3 d' -> digs 2 m' ->
  (forall s, x = Some s -> digs 2 s) -> (forall s, x' = Some s -> digs 2 s) -> stops r ->
  position (sg :: d ++ m ++ secs x ++ sg' :: d' ++ m' ++ secs x' ++ r) = Some (groups sg d m x, groups sg' d' m' x').
Proof.
  intros sg d m x sg' d' m' x' r S S' D M D' M' X X' R. unfold position.
  destruct (coords_first sg' 3 d' m' x' r S' (or_introl eq_refl) D' M' X' R) as [l' E'].
  assert (St : stops (sg' :: d' ++ m' ++ secs x' ++ r)) by (cbn; now apply sign_notdigit).
  destruct x as [s|].
  - cbn [secs]. destruct (coords_lat sg d m s (sg' :: d' ++ m' ++ secs x' ++ r) S D M (X _ eq_refl) St) as (d0 & m0 & r0 & E & c & q & -> & C).
    rewrite E. cbn [flat_map fst snd]. rewrite coords_digit by exact C. rewrite E'. reflexivity.
  - destruct (coords_first sg 2 d m None (sg' :: d' ++ m' ++ secs x' ++ r) S (or_intror (conj eq_refl eq_refl)) D M X St) as [l E].
    cbn [secs app] in E |- *. rewrite E. cbn [flat_map fst snd]. rewrite E'. reflexivity.
Qed.
(** the whole angle of a coordinate, in seconds of arc: its sign is the sign of all of it *)
Definition angle (sg : N) (d m : pystr) (x : option pystr) : Z :=
  let a := (decnum d * 3600 + decnum m * 60 + match x with Some s => decnum s | None => 0 end)%Z in
  if N.eqb sg 45 then (- a)%Z else a.
(** digits are read as a decimal number *)
Theorem C73_number : decnum [] = 0%Z /\ forall s d, (d < 10)%N -> decnum (s ++ [48 + d]%N) = (10 * decnum s + Z.of_N d)%Z.
Proof. split; [reflexivity|]. intros s d _. unfold decnum. rewrite fold_left_app. cbn [fold_left]. lia. Qed.
Theorem C73_north_east : forall d m x, latlongdeg (groups 43 d m x) = angle 43 d m x.
Proof. intros. reflexivity. Qed.
(** south and west: the minutes and seconds are added instead of taken away *)
Theorem C73_south_west : forall d m x,
  latlongdeg (groups 45 d m x) = (angle 45 d m x + 2 * (decnum m * 60 + match x with Some s => decnum s | None => 0 end))%Z.
Proof. intros. unfold latlongdeg, angle, groups. cbn [c_neg c_deg c_min c_sec]. change (N.eqb 45 45) with true. cbv iota. lia. Qed.
(** Sydney is at -33°52', and is given -32°08' *)
Theorem C73_south_west_refuted : exists d m, digs 2 d /\ digs 2 m /\ latlongdeg (groups 45 d m None) <> angle 45 d m None.
Proof.
  assert (D : forall a b, (48 <= a <= 57)%N -> (48 <= b <= 57)%N -> digs 2 [a; b]) by (intros; split; [reflexivity|repeat constructor; lia]).
  exists [51; 51]%N, [53; 50]%N. split; [apply D; lia|]. split; [apply D; lia|].
  vm_compute. discriminate.
Qed.
Example C73_position_ex : position (lit "-3352+15113") = Some (groups 45 (lit "33") (lit "52") None, groups 43 (lit "151") (lit "13") None).
Proof. reflexivity. Qed.
Example C73_position_ex2 : position (lit "+404251-0740023") = Some (groups 43 (lit "40") (lit "42") (Some (lit "51")), groups 45 (lit "074") (lit "00") (Some (lit "23"))).
Proof. reflexivity. Qed.

(** The zones *)
(** [l] names [z] in country [c] at the position written [p] *)
Definition names_zone (ws : N -> bool) (l c p z : pystr) : Prop :=
  exists rest, M_Collation.strip ws l = c ++ [9%N] ++ p ++ [9%N] ++ z ++ rest /\
    (rest = [] \/ exists q, rest = 9%N :: q \/ rest = 35%N :: q) /\
    ~ In 9%N c /\ ~ In 9%N p /\ ~ In 9%N z /\ ~ In 35%N c /\ ~ In 35%N p /\ ~ In 35%N z.
(** the old name CLDR uses *)
Definition cldr_zone (z : pystr) : pystr := match dget streq fixzones z with Some k => k | None => z end.
Definition place (p : pystr) : option (Z * Z) :=
  match position p with Some (a, b) => Some (latlongdeg a, latlongdeg b) | None => None end.

Lemma cut_app a b : ~ In 35%N a -> cut_comment (a ++ b) = a ++ cut_comment b.
Proof.
  induction a as [|x a IH]; intros N; [reflexivity|]. cbn [cut_comment app]. destruct (N.eqb_spec x 35) as [->|].
  - exfalso. apply N. now left.
  - f_equal. apply IH. intros I. apply N. now right.
Qed.
Lemma zone_line_names ws r l c p z : names_zone ws l c p z -> zone_line ws r l = dset streq r (cldr_zone z) (c, place p).
Proof.
  intros (rest & E & R & Nc & Np & Nz & Hc & Hp & Hz). unfold zone_line. rewrite E.
  rewrite cut_app by exact Hc. rewrite cut_app by (intros [A|[]]; discriminate). rewrite cut_app by exact Hp.
  rewrite cut_app by (intros [A|[]]; discriminate). rewrite cut_app by exact Hz.
  cbn [app]. rewrite split_on_app by exact Nc. rewrite split_on_app by exact Np.
  destruct R as [-> | (q & [-> | ->])].
  - cbn [cut_comment]. rewrite app_nil_r, split_on_nosep by exact Nz. reflexivity.
  - cbn [cut_comment]. change (N.eqb 9 35) with false. cbv iota. rewrite split_on_app by exact Nz. reflexivity.
  - cbn [cut_comment]. change (N.eqb 35 35) with true. cbv iota. rewrite app_nil_r, split_on_nosep by exact Nz. reflexivity.
Qed.
(** what a line can do: nothing, or set one zone *)
Lemma zone_line_cases ws r l : zone_line ws r l = r \/
  exists c p z, names_zone ws l c p z /\ zone_line ws r l = dset streq r (cldr_zone z) (c, place p).
Proof.
  unfold zone_line at 1 2. destruct (split_on 9 (cut_comment (M_Collation.strip ws l))) as [|c [|p [|z rest]]] eqn:E; auto.
  right. exists c, p, z. assert (NZ : names_zone ws l c p z).
  { set (s := M_Collation.strip ws l) in *.
    assert (H : exists t, s = cut_comment s ++ t /\ (t = [] \/ exists q, t = 35%N :: q) /\ ~ In 35%N (cut_comment s)).
    { clear. induction s as [|x s IH]; [exists []; cbn; auto|]. cbn [cut_comment]. destruct (N.eqb_spec x 35) as [->|].
      - exists (35%N :: s). split; [reflexivity|]. split; [right; now exists s|intros []].
      - destruct IH as (t & A & B & C). exists t. split; [cbn; now f_equal|]. split; [exact B|]. intros [F|F]; [now apply n|now apply C]. }
    destruct H as (t & Es & Ht & N35). pose proof (join_split 9 (cut_comment s)) as J. rewrite E in J.
    assert (Nt : forall y, In y (c :: p :: z :: rest) -> ~ In 9%N y) by (intros y Hy; apply (split_on_In 9 (cut_comment s)); now rewrite E).
    assert (J2 : exists u, cut_comment s = c ++ [9%N] ++ p ++ [9%N] ++ z ++ u /\ (u = [] \/ exists q, u = 9%N :: q)).
    { destruct rest as [|y rest].
      - exists []. rewrite <- J. split; [cbn [join]; now rewrite app_nil_r|now left].
      - exists (9%N :: join [9%N] (y :: rest)). rewrite <- J. split; [reflexivity|right; eauto]. }
    destruct J2 as (u & Eu & Hu). exists (u ++ t). split; [fold s; rewrite Es, Eu; now rewrite <- ?app_assoc|].
    rewrite Eu in N35. rewrite !in_app_iff in N35. split; [|repeat split; try (apply Nt; cbn; tauto); tauto].
    destruct Hu as [-> | (q & ->)]; [|right; exists (q ++ t); left; reflexivity].
    destruct Ht as [-> | (q & ->)]; [now left|right; exists q; now right]. }
  split; [exact NZ|reflexivity].
Qed.

Lemma fold_other ws z lines : forall r,
  (forall l c p z', In l lines -> names_zone ws l c p z' -> cldr_zone z' <> z) ->
  dget streq (fold_left (zone_line ws) lines r) z = dget streq r z.
Proof.
  induction lines as [|l lines IH]; intros r H; [reflexivity|]. cbn [fold_left]. rewrite IH by (intros; eapply H; [right; eassumption|eassumption]).
  destruct (zone_line_cases ws r l) as [-> | (c & p & z' & N & ->)]; [reflexivity|].
  apply (dget_dset_other streq streq_spec). intros E. apply (H l c p z' (or_introl eq_refl) N). now symmetry.
Qed.
Definition etc_names : list pystr := map gmt_name gmt_range ++ [lit "Etc/Unknown"; lit "Etc/UTC"].
Lemma gmt_other z L : forall r, (forall i, In i L -> gmt_name i <> z) ->
  dget streq (fold_left (fun r i => dset streq r (gmt_name i) (gmt_row i)) L r) z = dget streq r z.
Proof.
  induction L as [|i L IH]; intros r H; [reflexivity|]. cbn [fold_left]. rewrite IH by (intros; apply H; now right).
  apply (dget_dset_other streq streq_spec). intros E. now apply (H i (or_introl eq_refl)).
Qed.
Lemma zones_other ws lines z : ~ In z etc_names -> dget streq (zones ws lines) z = dget streq (fold_left (zone_line ws) lines []) z.
Proof.
  intros N. unfold zones, add_utc, add_gmt. unfold etc_names in N. rewrite in_app_iff in N.
  rewrite !(dget_dset_other streq streq_spec) by (intros ->; apply N; right; cbn; tauto).
  apply gmt_other. intros i Hi E. apply N. left. rewrite <- E. now apply in_map.
Qed.

(** The row of a zone is that of the last line naming it *)
Theorem C73_last_line : forall ws before l after c p z, names_zone ws l c p z -> ~ In (cldr_zone z) etc_names ->
  (forall l' c' p' z', In l' after -> names_zone ws l' c' p' z' -> cldr_zone z' <> cldr_zone z) ->
  dget streq (zones ws (before ++ l :: after)) (cldr_zone z) = Some (c, place p).
Proof.
  intros ws before l after c p z N NE A. rewrite zones_other by exact NE. rewrite fold_left_app. cbn [fold_left].
  rewrite fold_other by exact A. rewrite (zone_line_names _ _ _ _ _ _ N). apply (dget_dset_same streq streq_spec).
Qed.
(** and nothing else is a zone, but for the ones of Etc *)
Theorem C73_only_lines : forall ws lines k r, dget streq (zones ws lines) k = Some r -> ~ In k etc_names ->
  exists l c p z, In l lines /\ names_zone ws l c p z /\ k = cldr_zone z /\ r = (c, place p).
Proof.
  intros ws lines k r H NE. rewrite zones_other in H by exact NE. revert k r H NE.
  induction lines as [|l lines IH] using rev_ind; intros k r H NE; [discriminate|].
  rewrite fold_left_app in H. cbn [fold_left] in H.
  destruct (zone_line_cases ws (fold_left (zone_line ws) lines []) l) as [E | (c & p & z & N & E)]; rewrite E in H.
  - destruct (IH _ _ H NE) as (l' & c & p & z & I & R). exists l', c, p, z. split; [apply in_app_iff; now left|exact R].
  - rewrite (dget_dset streq streq_spec) in H. destruct (streq_spec k (cldr_zone z)) as [Ek|].
    + injection H as <-. exists l, c, p, z. split; [apply in_app_iff; right; now left|auto].
    + destruct (IH _ _ H NE) as (l' & c' & p' & z' & I & R). exists l', c', p', z'. split; [apply in_app_iff; now left|exact R].
Qed.

(** the zones of Etc are always there, whatever the lines say *)
Theorem C73_utc : forall ws lines n, In n ["Unknown"; "UTC"]%string ->
  dget streq (zones ws lines) (lit "Etc/" ++ lit n) = Some (lit "001", Some (0, 0)%Z).
Proof.
  intros ws lines n [<- | [<- | []]]; unfold zones, add_utc.
  - rewrite (dget_dset_other streq streq_spec) by (intros E; discriminate E). apply (dget_dset_same streq streq_spec).
  - apply (dget_dset_same streq streq_spec).
Qed.
Lemma gmt_range_NoDup : NoDup (map gmt_name gmt_range).
Proof.
  assert (B : forall l : list pystr, (fix nd l := match l with [] => true | x :: l' => (negb (existsb (streq x) l') && nd l')%bool end) l = true -> NoDup l).
  { induction l as [|x l IH]; intros H; constructor; apply andb_true_iff in H; destruct H as [A C]; [|now apply IH].
    intros I. apply negb_true_iff in A. assert (X : existsb (streq x) l = true); [|congruence].
    apply existsb_exists. exists x. split; [exact I|apply streq_refl]. }
  apply B. vm_compute. reflexivity.
Qed.
Lemma gmt_range_in i : In i gmt_range <-> (-14 <= i <= 12)%Z.
Proof.
  unfold gmt_range. rewrite in_map_iff. split.
  - intros (n & <- & H). apply in_seq in H. lia.
  - intros H. exists (Z.to_nat (i + 14)). split; [lia|]. apply in_seq. lia.
Qed.
Lemma gmt_set i L : forall r, NoDup (map gmt_name L) -> In i L ->
  dget streq (fold_left (fun r i => dset streq r (gmt_name i) (gmt_row i)) L r) (gmt_name i) = Some (gmt_row i).
Proof.
  induction L as [|j L IH]; intros r ND I; [destruct I|]. cbn [fold_left]. inversion ND as [|? ? A B]; subst. destruct I as [->|I].
  - rewrite gmt_other; [apply (dget_dset_same streq streq_spec)|]. intros k Hk E. apply A. rewrite <- E. now apply in_map.
  - now apply IH.
Qed.
(** Etc/GMT-14 to Etc/GMT+12 are on the equator, 15 degrees an hour, going east with the
    number in the name, after a turn of 360 degrees *)
Definition gmt_table : list (string * Z) :=
  [("Etc/GMT-14", -14); ("Etc/GMT-13", -13); ("Etc/GMT-12", -12); ("Etc/GMT-11", -11); ("Etc/GMT-10", -10);
   ("Etc/GMT-9", -9); ("Etc/GMT-8", -8); ("Etc/GMT-7", -7); ("Etc/GMT-6", -6); ("Etc/GMT-5", -5);
   ("Etc/GMT-4", -4); ("Etc/GMT-3", -3); ("Etc/GMT-2", -2); ("Etc/GMT-1", -1); ("Etc/GMT+0", 0);
   ("Etc/GMT+1", 1); ("Etc/GMT+2", 2); ("Etc/GMT+3", 3); ("Etc/GMT+4", 4); ("Etc/GMT+5", 5);
   ("Etc/GMT+6", 6); ("Etc/GMT+7", 7); ("Etc/GMT+8", 8); ("Etc/GMT+9", 9); ("Etc/GMT+10", 10);
   ("Etc/GMT+11", 11); ("Etc/GMT+12", 12)]%Z%string.
Lemma gmt_table_ok : map (fun e => (lit (fst e), snd e)) gmt_table = map (fun i => (gmt_name i, i)) gmt_range.
Proof. vm_compute. reflexivity. Qed.
Theorem C73_gmt : forall ws lines name i, In (name, i) gmt_table ->
  dget streq (zones ws lines) (lit name) = Some (lit "001", Some (0, (15 * i + 360) * 3600)%Z).
Proof.
  intros ws lines name i H.
  assert (I0 : In (lit name, i) (map (fun i => (gmt_name i, i)) gmt_range)).
  { rewrite <- gmt_table_ok. apply in_map_iff. exists (name, i). split; [reflexivity|exact H]. }
  apply in_map_iff in I0. destruct I0 as (i' & E & I). injection E as E1 E2. rewrite <- E1. subst i'. clear E1 H name.
  pose proof (proj1 (gmt_range_in i) I) as H. unfold zones, add_utc, add_gmt.
  assert (N : forall n, In n ["Unknown"; "UTC"]%string -> gmt_name i <> lit "Etc/" ++ lit n).
  { intros n [<- | [<- | []]] E; unfold gmt_name in E; cbn in E; discriminate E. }
  rewrite (dget_dset_other streq streq_spec) by (apply (N "UTC"%string); cbn; tauto).
  rewrite (dget_dset_other streq streq_spec) by (apply (N "Unknown"%string); cbn; tauto).
  rewrite gmt_set by (exact gmt_range_NoDup || exact I). unfold gmt_row.
  destruct (Z.leb_spec (i * 15) 180); [|lia]. replace ((i * 15 + 360) * 3600)%Z with ((15 * i + 360) * 3600)%Z by lia. reflexivity.
Qed.
(** so these longitudes are not ones a map has *)
Theorem C73_gmt_refuted : forall ws lines, exists c a b, dget streq (zones ws lines) (lit "Etc/GMT+0") = Some (c, Some (a, b)) /\ (b > 180 * 3600)%Z.
Proof.
  intros ws lines. do 3 eexists. split; [apply (C73_gmt ws lines "Etc/GMT+0" 0); cbn; tauto|lia].
Qed.

(** The file written *)
Lemma poscmp_eq a b : poscmp a b = Eq <-> a = b.
Proof.
  destruct a as [[x y]|], b as [[x' y']|]; cbn; split; intros H; try discriminate; try reflexivity.
  - destruct (Z.compare_spec x x'); try discriminate. apply Z.compare_eq in H. congruence.
  - injection H as -> ->. now rewrite !Z.compare_refl.
Qed.
Lemma poscmp_antisym a b : poscmp b a = CompOpp (poscmp a b).
Proof.
  destruct a as [[x y]|], b as [[x' y']|]; cbn; try reflexivity. rewrite (Z.compare_antisym x x'), (Z.compare_antisym y y').
  destruct (Z.compare x x'); reflexivity.
Qed.
Lemma poscmp_trans a b c : poscmp a b = Lt -> poscmp b c = Lt -> poscmp a c = Lt.
Proof.
  destruct a as [[x y]|], b as [[x' y']|], c as [[u v]|]; cbn; intros A B; try discriminate; try reflexivity.
  destruct (Z.compare_spec x x'); try discriminate; destruct (Z.compare_spec x' u); try discriminate; subst.
  - rewrite Z.compare_refl. apply Z.compare_lt_iff in A, B. apply Z.compare_lt_iff. eapply Z.lt_trans; eassumption.
  - now replace (Z.compare x' u) with Lt by (symmetry; now apply Z.compare_lt_iff).
  - now replace (Z.compare x u) with Lt by (symmetry; now apply Z.compare_lt_iff).
  - replace (Z.compare x u) with Lt by (symmetry; apply Z.compare_lt_iff; eapply Z.lt_trans; eassumption). reflexivity.
Qed.
Lemma zonecmp_antisym a b : zonecmp b a = CompOpp (zonecmp a b).
Proof.
  unfold zonecmp. rewrite (strcmp_antisym (fst (snd a)) (fst (snd b))). destruct (strcmp (fst (snd a)) (fst (snd b))); try reflexivity.
  cbn. rewrite (poscmp_antisym (snd (snd a)) (snd (snd b))). destruct (poscmp (snd (snd a)) (snd (snd b))); try reflexivity.
  cbn. apply strcmp_antisym.
Qed.
Lemma zonecmp_eq a b : zonecmp a b = Eq <-> a = b.
Proof.
  destruct a as [k [c p]], b as [k' [c' p']]. unfold zonecmp. cbn [fst snd]. split; intros H.
  - destruct (strcmp c c') eqn:E; try discriminate. apply strcmp_eq in E. destruct (poscmp p p') eqn:E2; try discriminate.
    apply poscmp_eq in E2. apply strcmp_eq in H. congruence.
  - injection H as -> -> ->. rewrite (proj2 (strcmp_eq c' c') eq_refl), (proj2 (poscmp_eq p' p') eq_refl). now apply strcmp_eq.
Qed.
Lemma zonecmp_trans a b c : zonecmp a b = Lt -> zonecmp b c = Lt -> zonecmp a c = Lt.
Proof.
  destruct a as [k [x p]], b as [k' [x' p']], c as [k2 [x2 p2]]. unfold zonecmp. cbn [fst snd]. intros A B.
  destruct (strcmp x x') eqn:E1; try discriminate; destruct (strcmp x' x2) eqn:E2; try discriminate.
  - apply strcmp_eq in E1, E2. subst. rewrite (proj2 (strcmp_eq x2 x2) eq_refl).
    destruct (poscmp p p') eqn:P1; try discriminate; destruct (poscmp p' p2) eqn:P2; try discriminate.
    + apply poscmp_eq in P1, P2. subst. rewrite (proj2 (poscmp_eq p2 p2) eq_refl). eapply strcmp_trans; eassumption.
    + apply poscmp_eq in P1. subst. now rewrite P2.
    + apply poscmp_eq in P2. subst. now rewrite P1.
    + now rewrite (poscmp_trans _ _ _ P1 P2).
  - apply strcmp_eq in E1. subst. now rewrite E2.
  - apply strcmp_eq in E2. subst. now rewrite E1.
  - now rewrite (strcmp_trans _ _ _ E1 E2).
Qed.
Lemma zoneleb_total a b : zoneleb a b = true \/ zoneleb b a = true.
Proof. unfold zoneleb. rewrite (zonecmp_antisym a b). destruct (zonecmp a b); cbn; auto. Qed.
Lemma zoneleb_trans a b c : zoneleb a b = true -> zoneleb b c = true -> zoneleb a c = true.
Proof.
  unfold zoneleb. destruct (zonecmp a b) eqn:A; destruct (zonecmp b c) eqn:B; try discriminate; intros _ _.
  - apply zonecmp_eq in A, B. subst. now rewrite (proj2 (zonecmp_eq c c) eq_refl).
  - apply zonecmp_eq in A. subst. now rewrite B.
  - apply zonecmp_eq in B. subst. now rewrite A.
  - now rewrite (zonecmp_trans _ _ _ A B).
Qed.
Lemma fold_NoDup ws lines : forall r, NoDup (dkeys r) -> NoDup (dkeys (fold_left (zone_line ws) lines r)).
Proof.
  induction lines as [|l lines IH]; intros r N; [exact N|]. cbn [fold_left]. apply IH.
  destruct (zone_line_cases ws r l) as [-> | (c & p & z & _ & ->)]; [exact N|]. now apply (dset_NoDup streq streq_spec).
Qed.
Lemma zones_NoDup ws lines : NoDup (dkeys (zones ws lines)).
Proof.
  unfold zones, add_utc, add_gmt. do 2 apply (dset_NoDup streq streq_spec).
  generalize gmt_range. intros L. assert (H : NoDup (dkeys (fold_left (zone_line ws) lines []))) by (apply fold_NoDup; constructor).
  revert H. generalize (fold_left (zone_line ws) lines []). induction L as [|i L IH]; intros r N; [exact N|]. cbn [fold_left].
  apply IH. now apply (dset_NoDup streq streq_spec).
Qed.

(** the line for a zone *)
Definition zone_text (gfmt : Z -> pystr) (k c : pystr) (a b : Z) : pystr :=
  k ++ lit ", " ++ c ++ lit ", " ++ gfmt a ++ lit ", " ++ gfmt b ++ [10%N].
(** country first, then latitude, longitude and name *)
Definition zone_before (a b : pystr * (pystr * (Z * Z))) : Prop :=
  let '(k, (c, (x, y))) := a in let '(k', (c', (x', y'))) := b in
  strcmp c c' = Lt \/ c = c' /\ (x < x' \/ x = x' /\ (y < y' \/ y = y' /\ strcmp k k' = Lt))%Z.

Lemma write_ok gfmt : forall rs, (forall k c o, In (k, (c, o)) rs -> o <> None) ->
  exists out, map (fun r => (fst r, (fst (snd r), Some (snd (snd r))))) out = rs /\
    write_zones gfmt rs = (map (fun r => zone_text gfmt (fst r) (fst (snd r)) (fst (snd (snd r))) (snd (snd (snd r)))) out, None).
Proof.
  induction rs as [|[k [c o]] rs IH]; intros H; [exists []; split; reflexivity|].
  destruct IH as (out & E & W); [intros; eapply H; right; eassumption|].
  destruct o as [[a b]|]; [|exfalso; eapply H; [now left|reflexivity]].
  exists ((k, (c, (a, b))) :: out). split; [cbn; now f_equal|]. cbn [write_zones]. rewrite W. reflexivity.
Qed.

(** If every zone has a position, each is written once, in order *)
Theorem C73_written : forall ws gfmt lines,
  (forall k c, dget streq (zones ws lines) k <> Some (c, None)) ->
  exists out, zonetab ws gfmt lines = (map (fun r => zone_text gfmt (fst r) (fst (snd r)) (fst (snd (snd r))) (snd (snd (snd r)))) out, None) /\
    StronglySorted zone_before out /\ NoDup (map fst out) /\
    forall k c x y, In (k, (c, (x, y))) out <-> dget streq (zones ws lines) k = Some (c, Some (x, y)).
Proof.
  intros ws gfmt lines H. pose proof (zones_NoDup ws lines) as ND. unfold zonetab. revert H ND. generalize (zones ws lines). intros Z0 H ND.
  destruct (write_ok gfmt (isort zoneleb Z0)) as (out & E & W).
  { intros k c o I ->. apply in_isort in I. apply (H k c). apply (dget_NoDup_In streq streq_spec); assumption. }
  exists out. split; [exact W|]. assert (P : Permutation Z0 (isort zoneleb Z0)) by apply isort_perm.
  assert (ND2 : NoDup (map fst out)).
  { replace (map fst out) with (map fst (isort zoneleb Z0)) by (rewrite <- E, map_map; reflexivity).
    eapply Permutation_NoDup; [apply Permutation_map, P|]. exact ND. }
  split; [|split; [exact ND2|intros k c x y; split]].
  - pose proof (isort_sorted zoneleb zoneleb_total zoneleb_trans Z0) as S. rewrite <- E in S. clear - S ND2.
    induction out as [|[k [c [x y]]] out IH]; [constructor|]. cbn [map] in S. inversion S as [|? ? A B]; subst. inversion ND2 as [|? ? N1 N2]; subst. constructor; [now apply IH|].
    apply Forall_forall. intros [k' [c' [x' y']]] I. rewrite Forall_forall in B. specialize (B _ (in_map _ _ _ I)). cbn [fst snd] in B.
    unfold zoneleb, zonecmp in B. cbn [fst snd poscmp] in B. cbn.
    destruct (strcmp c c') eqn:E1; try discriminate; [|now left]. right. split; [now apply strcmp_eq|].
    destruct (Z.compare_spec x x') as [->|L|L]; [|now left|discriminate]. right. split; [reflexivity|].
    destruct (Z.compare_spec y y') as [->|L|L]; [|now left|discriminate]. right. split; [reflexivity|].
    destruct (strcmp k k') eqn:E2; try discriminate; [|reflexivity]. apply strcmp_eq in E2. subst. exfalso. apply N1. apply in_map_iff. exists (k', (c', (x', y'))). now split.
  - intros I. apply (dget_NoDup_In streq streq_spec); [exact ND|]. apply (in_isort zoneleb). rewrite <- E. apply in_map_iff. exists (k, (c, (x, y))). split; [reflexivity|exact I].
  - intros I. apply (dget_In streq streq_spec) in I. apply (in_isort zoneleb) in I. rewrite <- E in I. apply in_map_iff in I.
    destruct I as ([k' [c' [x' y']]] & Eq & I). cbn in Eq. injection Eq as -> -> -> ->. exact I.
Qed.

(** One zone whose position is not understood ends the program *)
Theorem C73_no_position_raises : forall ws gfmt lines k c, dget streq (zones ws lines) k = Some (c, None) ->
  snd (zonetab ws gfmt lines) = Some IndexError.
Proof.
  intros ws gfmt lines k c H. apply (dget_In streq streq_spec) in H. apply (in_isort zoneleb) in H. unfold zonetab. revert H.
  generalize (isort zoneleb (zones ws lines)). induction l as [|[k' [c' [[a b]|]]] l IH]; intros I; [destruct I| |reflexivity].
  destruct I as [E|I]; [discriminate|]. cbn [write_zones snd]. now apply IH.
Qed.

(** Reading it *)
Definition no_char (c : N) (s : pystr) : Prop := ~ In c s.
(** the text of a line: nothing behind "#" counts, the name ends at the first comma *)
Lemma rstrip_app ws a w : forallb ws w = true -> (a = [] \/ exists m y, a = m ++ [y] /\ ws y = false) -> M_Collation.rstrip ws (a ++ w) = a.
Proof.
  intros W A. unfold M_Collation.rstrip. rewrite rev_app_distr, T_Collation2.lstrip_ws by now apply T_Collation2.rev_ws.
  destruct A as [-> | (m & y & -> & Y)]; [reflexivity|]. rewrite rev_app_distr. cbn [rev app M_Collation.lstrip]. rewrite Y. cbn [rev].
  now rewrite rev_involutive.
Qed.
Theorem C73_name : forall ws l name w rest, M_Collation.strip ws l = name ++ w ++ [44%N] ++ rest ->
  forallb ws w = true -> ws 44%N = false -> ws 35%N = false -> ~ In 44%N name -> ~ In 35%N name ->
  (name = [] \/ exists m y, name = m ++ [y] /\ ws y = false) ->
  tz_name ws l = name.
Proof.
  intros ws l name w rest E W C H N1 N2 T. unfold tz_name. rewrite E.
  assert (Nw : ~ In 35%N w) by (intros I; rewrite forallb_forall in W; rewrite (W _ I) in H; discriminate).
  assert (Nc : ~ In 44%N w) by (intros I; rewrite forallb_forall in W; rewrite (W _ I) in C; discriminate).
  rewrite cut_app by exact N2. rewrite cut_app by exact Nw. rewrite cut_app by (intros [A|[]]; discriminate).
  rewrite app_assoc. cbn [app]. rewrite split_on_app by (rewrite in_app_iff; tauto).
  destruct (split_on 44 (cut_comment rest)) eqn:E2; [now apply split_on_nonempty in E2|]. now apply rstrip_app.
Qed.
Theorem C73_name_only : forall ws l name, M_Collation.strip ws l = name -> ~ In 44%N name -> ~ In 35%N name -> tz_name ws l = name.
Proof.
  intros ws l name E N1 N2. unfold tz_name. rewrite E, <- (app_nil_r name), cut_app by exact N2. cbn [cut_comment]. rewrite app_nil_r, split_on_nosep by exact N1. reflexivity.
Qed.

(** numbers written with the same number of digits *)
Lemma decpad_length n : forall v, length (decpad n v) = n.
Proof. induction n as [|n IH]; intros v; [reflexivity|]. cbn [decpad]. rewrite app_length, IH. cbn. lia. Qed.
Lemma lcmp_snoc a : forall b x y, length a = length b -> strcmp (a ++ [x]) (b ++ [y]) = match strcmp a b with Eq => N.compare x y | c => c end.
Proof.
  unfold strcmp. induction a as [|c a IH]; intros [|d b] x y L; try discriminate; cbn.
  - destruct (N.compare x y); reflexivity.
  - destruct (N.compare c d); try reflexivity. apply IH. now injection L.
Qed.
Lemma decpad_cmp n : forall v w, (v < 10 ^ N.of_nat n)%N -> (w < 10 ^ N.of_nat n)%N -> strcmp (decpad n v) (decpad n w) = N.compare v w.
Proof.
  induction n as [|n IH]; intros v w V W.
  - cbn in *. replace v with 0%N by lia. replace w with 0%N by lia. reflexivity.
  - cbn [decpad]. rewrite lcmp_snoc by now rewrite !decpad_length.
    rewrite Nat2N.inj_succ, N.pow_succ_r' in V, W.
    rewrite IH by (apply N.div_lt_upper_bound; lia).
    pose proof (N.div_mod v 10 ltac:(lia)) as EV. pose proof (N.div_mod w 10 ltac:(lia)) as EW.
    pose proof (N.mod_lt v 10 ltac:(lia)) as MV. pose proof (N.mod_lt w 10 ltac:(lia)) as MW.
    destruct (N.compare_spec (v / 10) (w / 10)) as [Q|Q|Q].
    + destruct (N.compare_spec (v mod 10) (w mod 10)); destruct (N.compare_spec (48 + v mod 10) (48 + w mod 10)); try lia; symmetry;
        [apply N.compare_eq_iff|apply N.compare_lt_iff|apply N.compare_gt_iff]; lia.
    + symmetry. apply N.compare_lt_iff. lia.
    + symmetry. apply N.compare_gt_iff. lia.
Qed.
Lemma dec_aux_len fuel : forall n, (n < 10 ^ N.of_nat fuel)%N -> (n < 10 ^ N.of_nat (length (M_LdmlBase.dec_aux fuel n)))%N.
Proof.
  induction fuel as [|f IH]; intros n H; [exact H|]. cbn [M_LdmlBase.dec_aux]. rewrite app_length. cbn [length]. rewrite Nat.add_1_r.
  destruct (N.ltb_spec n 10) as [L|L].
  - cbn [length]. exact L.
  - rewrite Nat2N.inj_succ, N.pow_succ_r' in *. specialize (IH (n / 10)%N ltac:(apply N.div_lt_upper_bound; lia)).
    pose proof (N.div_mod n 10 ltac:(lia)). pose proof (N.mod_lt n 10 ltac:(lia)). nia.
Qed.
Lemma pow_gt n : (N.of_nat n < 10 ^ N.of_nat n)%N.
Proof. apply N.pow_gt_lin_r. lia. Qed.
Lemma ndig_bound n : (N.of_nat n < 10 ^ N.of_nat (ndig n))%N.
Proof.
  unfold ndig, M_LdmlBase.decstr. apply dec_aux_len. rewrite Nat2N.inj_succ, N.pow_succ_r'. pose proof (pow_gt n). lia.
Qed.

Lemma tz_fold (K : nat -> pystr) : forall vals s d z,
  dget streq (fold_left (fun d iv => dset streq d (snd iv) (K (fst iv))) (combine (seq s (length vals)) vals) d) z
  = match find (fun iv => streq z (snd iv)) (rev (combine (seq s (length vals)) vals)) with
    | Some iv => Some (K (fst iv)) | None => dget streq d z end.
Proof.
  intros vals s d z. generalize (combine (seq s (length vals)) vals) as L. intros L. revert d.
  induction L as [|iv L IH] using rev_ind; intros d; [reflexivity|]. rewrite fold_left_app, rev_app_distr. cbn [fold_left rev app find].
  rewrite (dget_dset streq streq_spec). destruct (streq_spec z (snd iv)); [reflexivity|]. apply IH.
Qed.

(** The values keep, in their numbers, the order of the list *)
Lemma enum_keys_spec : forall vals, 
  (forall z, (exists key, dget streq (enum_keys vals) z = Some key) <-> In z vals) /\
  forall i j vi vj ki kj, nth_error vals i = Some vi -> nth_error vals j = Some vj ->
    (forall n, nth_error vals n = Some vi -> n <= i) -> (forall n, nth_error vals n = Some vj -> n <= j) ->
    dget streq (enum_keys vals) vi = Some ki -> dget streq (enum_keys vals) vj = Some kj ->
    length ki = length kj /\ strcmp ki kj = Nat.compare i j.
Proof.
  intros vals. set (t := enum_keys vals). set (K := fun i => decpad (ndig (length vals)) (N.of_nat i + 1)).
  assert (G : forall z, dget streq t z = match find (fun iv => streq z (snd iv)) (rev (combine (seq 0 (length vals)) vals)) with
      | Some iv => Some (K (fst iv)) | None => None end) by (intros z; apply (tz_fold K)).
  clearbody t.
  assert (Hin : forall n v, In (n, v) (rev (combine (seq 0 (length vals)) vals)) <-> nth_error vals n = Some v).
  { intros n v. rewrite <- in_rev. clear. replace n with (0 + n) at 1 by lia. generalize 0 at 1 2 as s. revert n.
    induction vals as [|x vals IH]; intros n s; [cbn; destruct n; split; [tauto|discriminate|tauto|discriminate]|].
    cbn [length seq combine]. split.
    - intros [E|I]; [injection E as E1 ->; replace n with 0 by lia; reflexivity|].
      destruct n as [|n]; [|apply (IH n (S s)); now rewrite Nat.add_succ_r in I].
      apply in_combine_l in I. apply in_seq in I. lia.
    - destruct n as [|n]; intros E; [injection E as ->; left; f_equal; lia|]. right. rewrite Nat.add_succ_r. now apply (IH n (S s)). }
  split.
  - intros z. rewrite G. split.
    + intros (key & E). destruct (find _ _) as [[n v]|] eqn:F; [|discriminate]. apply find_some in F. destruct F as [I S]. apply streq_true in S. cbn in S. subst v.
      apply Hin in I. now apply nth_error_In in I.
    + intros I. destruct (find _ _) as [iv|] eqn:F; [eauto|]. exfalso. apply In_nth_error in I. destruct I as [n I].
      apply Hin in I. pose proof (find_none _ _ F _ I) as X. cbn in X. rewrite streq_refl in X. discriminate.
  - assert (Pick : forall i vi, nth_error vals i = Some vi -> (forall n, nth_error vals n = Some vi -> n <= i) ->
        dget streq t vi = Some (K i) /\ i < length vals).
    { intros i vi Ei Li. assert (Bi : i < length vals) by (apply nth_error_Some; congruence). split; [|exact Bi].
      rewrite G. assert (SD : Sorted.StronglySorted (fun a b : nat * pystr => fst b < fst a) (rev (combine (seq 0 (length vals)) vals))).
      { clear. generalize 0 as s. induction vals as [|x vals IH]; intros s; [constructor|]. cbn [length seq combine rev].
        assert (App : forall (A : Type) (R : A -> A -> Prop) l y, StronglySorted R l -> Forall (fun a => R a y) l -> StronglySorted R (l ++ [y])).
        { intros A R l y S0 F0. induction S0 as [|a l S1 IH0 F1]; [repeat constructor|]. inversion F0; subst. cbn. constructor; [now apply IH0|].
          apply Forall_app. split; [exact F1|now repeat constructor]. }
        apply App; [apply IH|]. apply Forall_forall. intros [n v] I. apply in_rev, in_combine_l, in_seq in I. cbn. lia. }
      assert (I0 : In (i, vi) (rev (combine (seq 0 (length vals)) vals))) by now apply Hin.
      assert (Mx : forall n v, In (n, v) (rev (combine (seq 0 (length vals)) vals)) -> v = vi -> n <= i).
      { intros n v I E. apply Hin in I. subst v. now apply Li. }
      revert SD I0 Mx. generalize (rev (combine (seq 0 (length vals)) vals)) as L. induction L as [|[n v] L IH]; intros SD I0 Mx; [destruct I0|].
      cbn [find fst snd]. destruct (streq_spec vi v) as [Ev|Nv].
      - cbn [fst]. assert (n <= i) by (apply (Mx n v); [now left|now symmetry]).
        destruct I0 as [E|I0]; [injection E as -> _; reflexivity|]. inversion SD as [|? ? _ F0]; subst. rewrite Forall_forall in F0. specialize (F0 _ I0). cbn in F0. lia.
      - destruct I0 as [E|I0]; [injection E as _ E; now symmetry in E|]. apply IH; [now inversion SD|exact I0|intros; eapply Mx; [right; eassumption|assumption]]. }
    intros i j vi vj ki kj Ei Ej Li Lj Gi Gj. destruct (Pick i vi Ei Li) as [Pi Bi]. destruct (Pick j vj Ej Lj) as [Pj Bj].
    rewrite Pi in Gi. rewrite Pj in Gj. injection Gi as <-. injection Gj as <-. unfold K. split; [now rewrite !decpad_length|].
    pose proof (ndig_bound (length vals)). rewrite decpad_cmp by lia.
    rewrite Nat2N.inj_compare. destruct (N.compare_spec (N.of_nat i) (N.of_nat j)); [apply N.compare_eq_iff|apply N.compare_lt_iff|apply N.compare_gt_iff]; lia.
Qed.
(** The zones keep, in their sort keys, the order of the file *)
Theorem C73_order : forall ws lines t, read_tz ws lines = Ok t ->
  (forall z, (exists key, dget streq t z = Some key) <-> exists l, In l lines /\ tz_name ws l = z) /\
  forall i j li lj ki kj, nth_error lines i = Some li -> nth_error lines j = Some lj ->
    (* the last line of its name *)
    (forall n l, nth_error lines n = Some l -> tz_name ws l = tz_name ws li -> n <= i) ->
    (forall n l, nth_error lines n = Some l -> tz_name ws l = tz_name ws lj -> n <= j) ->
    dget streq t (tz_name ws li) = Some ki -> dget streq t (tz_name ws lj) = Some kj ->
    length ki = length kj /\ strcmp ki kj = Nat.compare i j.
Proof.
  intros ws lines t H.
  assert (Ht : t = enum_keys (map (tz_name ws) lines)).
  { unfold read_tz in H. destruct (map (tz_name ws) lines); [discriminate|]. now injection H. }
  subst t. clear H. destruct (enum_keys_spec (map (tz_name ws) lines)) as [A B]. split.
  - intros z. rewrite A. rewrite in_map_iff. split; intros (l & X & Y); exists l; auto.
  - intros i j li lj ki kj Ei Ej Li Lj. apply B.
    + now rewrite nth_error_map, Ei.
    + now rewrite nth_error_map, Ej.
    + intros n E. rewrite nth_error_map in E. destruct (nth_error lines n) as [l|] eqn:En; [|discriminate]. injection E as E. now apply (Li n l).
    + intros n E. rewrite nth_error_map in E. destruct (nth_error lines n) as [l|] eqn:En; [|discriminate]. injection E as E. now apply (Lj n l).
Qed.
Theorem C73_empty_file : forall ws lines, read_tz ws lines = Raise ValueError <-> lines = [].
Proof.
  intros ws lines. destruct lines as [|l lines]; [split; reflexivity|]. split; [|discriminate]. unfold read_tz. cbn [map]. discriminate.
Qed.

(** What zonetab writes, ReadTZData reads *)
Definition zone_name_ok (ws : N -> bool) (k : pystr) : Prop :=
  ~ In 44%N k /\ ~ In 35%N k /\ (exists x m, k = x :: m /\ ws x = false) /\ (exists m y, k = m ++ [y] /\ ws y = false).
Theorem C73_read_back : forall ws gfmt k c a b, zone_name_ok ws k -> ws 10%N = true -> ws 44%N = false -> ws 35%N = false ->
  (exists m y, gfmt b = m ++ [y] /\ ws y = false) ->
  tz_name ws (zone_text gfmt k c a b) = k.
Proof.
  intros ws gfmt k c a b (N1 & N2 & (x & m & Ek & Hx) & T) W10 W44 W35 (mb & y & Eb & Hy).
  apply (C73_name ws _ k [] (lit " " ++ c ++ lit ", " ++ gfmt a ++ lit ", " ++ gfmt b)); try assumption; try reflexivity.
  - unfold zone_text. set (mid := lit " " ++ c ++ lit ", " ++ gfmt a ++ lit ", ").
    replace (k ++ lit ", " ++ c ++ lit ", " ++ gfmt a ++ lit ", " ++ gfmt b ++ [10%N]) with ([] ++ (k ++ [44%N] ++ mid ++ gfmt b) ++ [10%N])
      by (unfold mid; change (lit ", ") with ([44%N] ++ lit " "); now rewrite <- ?app_assoc).
    rewrite T_Collation2.strip_trim.
    + unfold mid. cbn [app]. now rewrite <- ?app_assoc.
    + reflexivity.
    + cbn. now rewrite W10.
    + exists x, (m ++ [44%N] ++ mid ++ gfmt b). rewrite Ek. split; [reflexivity|exact Hx].
    + exists y, (k ++ [44%N] ++ mid ++ mb). rewrite Eb. split; [now rewrite <- ?app_assoc|exact Hy].
  - now right.
Qed.
(** A trial: two zones of one country *)
Definition spc (c : N) : bool := N.eqb c 32 || N.eqb c 9 || N.eqb c 10.
Example C73_ex :
  let out := zonetab spc (fun z => if Z.ltb z 0 then lit "-1" else lit "1")
     [lit "# comment"; lit "AU" ++ [9%N] ++ lit "-3352+15113" ++ [9%N] ++ lit "Australia/Sydney" ++ [9%N] ++ lit "NSW" ++ [10%N];
      lit "IN" ++ [9%N] ++ lit "+2232+08822" ++ [9%N] ++ lit "Asia/Kolkata" ++ [10%N]] in
  length (fst out) = 31 /\ snd out = None /\ nth 30 (map (tz_name spc) (fst out)) [] = lit "Asia/Calcutta" /\ nth 29 (map (tz_name spc) (fst out)) [] = lit "Australia/Sydney".
Proof. vm_compute. repeat split. Qed.
Example C73_names_ex : names_zone spc (lit "IN" ++ [9%N] ++ lit "+2232+08822" ++ [9%N] ++ lit "Asia/Kolkata" ++ [10%N]) (lit "IN") (lit "+2232+08822") (lit "Asia/Kolkata") /\
  ~ In (cldr_zone (lit "Asia/Kolkata")) etc_names.
Proof.
  split.
  - exists []. split; [reflexivity|]. split; [now left|]. repeat split; cbn; intuition discriminate.
  - intros I. vm_compute in I. repeat (destruct I as [I|I]; [discriminate I|]). exact I.
Qed.

(** C58 to C60: sort keys of strings under a tailoring, concrete cases, and cases where the plain reading fails. *)
From Coq Require Import QArith Qcanon.
From Verif Require Import Py PyFacts M_UnicodeSets P_UnicodeSets M_Collation P_Collation P_Collation2 T_Collation
  M_Tailor P_Tailor T_Tailor T_Tailor2 M_TailorQ T_Tailor3.
Open Scope nat_scope.

(** * Keys of strings *)
(** the key of a piece of a string: the tailored key [keys] gives it, else its DUCET entry *)
Definition piece_key {W} (d : list (pystr * list (W * W * W))) (keys : pystr -> option (list (list W))) (p : pystr)
  : option (key3 (W := W)) :=
  match keys p with
  | Some [a; b; c] => Some (a, b, c)
  | _ => match dget streq d p with
         | Some (r :: raw) => Some (map (fun t => fst (fst t)) (r :: raw), map (fun t => snd (fst t)) (r :: raw), map snd (r :: raw))
         | _ => None
         end
  end.

Section SK.
  Context {W : Type} (wcmp : W -> W -> comparison) (zero : W).
  Variable d : list (pystr * list (W * W * W)).
  Variable st : tstate (W := W).
  Hypothesis full : forall p e, dget streq (ts_elts st) p = Some e -> exists v, key_at st p = Some v /\ length v = 3.

  Lemma look_piece p : look_extra d st p = Ok (piece_key d (key_at st) p).
  Proof.
    unfold look_extra, piece_key. destruct (dget streq (ts_elts st) p) as [e|] eqn:E.
    - destruct (full p e E) as (v & Hv & L). rewrite Hv. unfold key_at in Hv. rewrite E in Hv.
      destruct (t_key e) as [r|]; [|discriminate]. injection Hv as Hv. rewrite Hv.
      destruct v as [|a [|b [|c [|]]]]; try discriminate L. reflexivity.
    - unfold key_at. rewrite E. unfold key_of. destruct (dget streq d p) as [[|r raw]|]; reflexivity.
  Qed.
  Lemma longest_piece k i : longest_r (look_extra d st) k i = Ok (longest (piece_key d (key_at st)) k i).
  Proof.
    induction i as [|i IH]; [reflexivity|]. cbn [longest_r longest]. rewrite look_piece. cbn [bind].
    destruct (piece_key d (key_at st) (firstn (S i) k)); [reflexivity|exact IH].
  Qed.
  Lemma loop_piece fuel : forall k acc,
    sortkey_loop_r (look_extra d st) fuel k acc = sortkey_loop (piece_key d (key_at st)) fuel k acc.
  Proof.
    induction fuel as [|f IH]; intros k acc; destruct k as [|c k]; try reflexivity; cbn [sortkey_loop_r sortkey_loop];
      rewrite longest_piece; cbn [bind]; destruct (longest _ _ _) as [[i [[a b] c0]]|]; try reflexivity.
    apply IH.
  Qed.
  Lemma sortKey_piece k : coll_sortKey wcmp zero d st k = ducetSortKey wcmp zero (piece_key d (key_at st)) k.
  Proof.
    unfold coll_sortKey, ducetSortKey. change (look_fn d st) with (look_extra d st). now rewrite loop_piece.
  Qed.
End SK.

Lemma set_full {W} (wcmp : W -> W -> comparison) (zero one : W) bump drop d elts force fuel st' :
  plain_tailoring d elts ->
  setSortKeys wcmp zero one bump drop d force fuel (TSt elts [] false) = Ok st' ->
  (forall p e, dget streq (ts_elts st') p = Some e -> exists v, key_at st' p = Some v /\ length v = 3) /\
  (forall p, key_at st' p <> None <-> In p (map fst elts)).
Proof.
  intros PT H. destruct (go_good wcmp zero one bump drop d elts PT force fuel st' H) as [Sh G].
  assert (A : forall p e, dget streq (ts_elts st') p = Some e -> exists v, key_at st' p = Some v /\ length v = 3).
  { intros p e E. pose proof (shape_get elts (noexp0 d elts PT) st' p Sh) as X. rewrite E in X. cbn in X.
    destruct (G p _ X) as (e1 & r & v & A1 & A2 & A3 & A4 & A5 & A6 & T). exists v. split.
    - unfold key_at. now rewrite A1, A3, A6.
    - eapply tk_len; eassumption. }
  split; [exact A|]. intros p. pose proof (shape_get elts (noexp0 d elts PT) st' p Sh) as X. split.
  - intros N. destruct (dget streq (ts_elts st') p) as [e|] eqn:E; [|unfold key_at in N; now rewrite E in N].
    cbn in X. apply (dget_In _ streq_spec) in X. now apply (in_map fst) in X.
  - intros Hin. apply (dget_Some_iff _ streq_spec) in Hin as (e & He). rewrite He in X.
    destruct (dget streq (ts_elts st') p) as [e1|] eqn:E; [|discriminate].
    destruct (A p e1 E) as (v & -> & _). discriminate.
Qed.

(** The tailored key of a string is put together piece by piece, each the longest known beginning of what is left:
    an element of the tailoring brings the key calculated for it, anything else its DUCET entry. It never fails. *)
Theorem C58_sortKey :
  forall W (wcmp : W -> W -> comparison) (zero one : W) bump drop d elts force fuel st',
    plain_tailoring d elts ->
    setSortKeys wcmp zero one bump drop d force fuel (TSt elts [] false) = Ok st' ->
    forall s, exists keys rest,
      segments (piece_key d (key_at st')) s keys rest /\
      coll_sortKey wcmp zero d st' s = Ok (levels_of wcmp zero s keys).
Proof.
  intros W wcmp zero one bump drop d elts force fuel st' PT H s.
  destruct (set_full wcmp zero one bump drop d elts force fuel st' PT H) as [F _].
  rewrite (sortKey_piece wcmp zero d st' F s). apply C09_sort_key.
Qed.

(** A string without any element of the tailoring in it keeps its DUCET key. *)
Theorem C58_untouched :
  forall W (wcmp : W -> W -> comparison) (zero one : W) bump drop d elts force fuel st',
    plain_tailoring d elts ->
    setSortKeys wcmp zero one bump drop d force fuel (TSt elts [] false) = Ok st' ->
    forall s, (forall p q r, s = p ++ q ++ r -> In q (map fst elts) -> q = []) ->
    coll_sortKey wcmp zero d st' s = dkey wcmp zero d s.
Proof.
  intros W wcmp zero one bump drop d elts force fuel st' PT H s Hs.
  destruct (set_full wcmp zero one bump drop d elts force fuel st' PT H) as [F K].
  rewrite (sortKey_piece wcmp zero d st' F s).
  destruct (C09_sort_key W wcmp zero (piece_key d (key_at st')) s) as (k1 & r1 & S1 & ->).
  unfold dkey. destruct (C09_sort_key W wcmp zero (key_of d (fun _ => None) None) s) as (k2 & r2 & S2 & ->).
  assert (X : segments (key_of d (fun _ => None) None) s k1 r1).
  { assert (EQ : forall q, q <> [] -> (exists p r, s = p ++ q ++ r) -> piece_key d (key_at st') q = key_of d (fun _ => None) None q).
    { intros q Nq (p & r & E). unfold piece_key, key_of.
      destruct (key_at st' q) as [v|] eqn:Ek.
      - exfalso. apply Nq. apply (Hs p q r E). apply K. congruence.
      - destruct (dget streq d q) as [[|]|]; reflexivity. }
    clear - S1 EQ.
    assert (G : forall k, segments (piece_key d (key_at st')) k k1 r1 -> (exists p, s = p ++ k) ->
                segments (key_of d (fun _ => None) None) k k1 r1).
    { clear S1. intros k S1. induction S1 as [k Hk|p q key keys rest Hp Hl Hlong _ IH]; intros (z & Ez).
      - constructor. intros p q E Np. rewrite <- EQ; [eapply Hk; eassumption|exact Np|]. exists z, q. now rewrite <- E.
      - constructor; [exact Hp| | |].
        + rewrite <- EQ; [exact Hl|exact Hp|]. exists z, q. exact Ez.
        + intros p' q' E L. rewrite <- EQ; [eapply Hlong; eassumption| |].
          * intros ->. cbn in L. lia.
          * exists z, q'. now rewrite <- E.
        + apply IH. exists (z ++ p). now rewrite <- app_assoc. }
    apply G; [exact S1|now exists []]. }
  destruct (C09_segmentation_unique _ _ _ _ _ _ _ X S2) as [-> _]. reflexivity.
Qed.

(** An element of one character has exactly the key calculated for it; a longer one has it without zero weights. *)
Theorem C58_element :
  forall W (wcmp : W -> W -> comparison) (zero one : W) bump drop d elts force fuel st',
    plain_tailoring d elts ->
    setSortKeys wcmp zero one bump drop d force fuel (TSt elts [] false) = Ok st' ->
    forall k, In k (map fst elts) -> k <> [] ->
    exists v, key_at st' k = Some v /\
      (length k = 1 -> coll_sortKey wcmp zero d st' k = Ok v) /\
      (length k <> 1 -> coll_sortKey wcmp zero d st' k =
         Ok (map (filter (fun w => match wcmp w zero with Eq => false | _ => true end)) v)).
Proof.
  intros W wcmp zero one bump drop d elts force fuel st' PT H k Hin Nk.
  destruct (set_full wcmp zero one bump drop d elts force fuel st' PT H) as [F K].
  rewrite (sortKey_piece wcmp zero d st' F k).
  pose proof (proj2 (K k) Hin) as N. destruct (key_at st' k) as [v|] eqn:Ek; [|congruence]. exists v. split; [reflexivity|].
  assert (L : length v = 3).
  { unfold key_at in Ek. destruct (dget streq (ts_elts st') k) as [e|] eqn:E; [|discriminate].
    destruct (F k e E) as (v' & Hv & L). unfold key_at in Hv. rewrite E in Hv.
    destruct (t_key e); [|discriminate]. congruence. }
  destruct v as [|a [|b [|c [|]]]]; try discriminate L.
  assert (P : piece_key d (key_at st') k = Some (a, b, c)) by (unfold piece_key; now rewrite Ek).
  assert (S1 : segments (piece_key d (key_at st')) k [(a, b, c)] []).
  { rewrite <- (app_nil_r k). constructor; [exact Nk|exact P| |].
    - intros p' q' E HL. apply (f_equal (@length _)) in E. rewrite !app_length in E. cbn in E. lia.
    - constructor. intros p q E Np. destruct p; [congruence|discriminate]. }
  destruct (C09_sort_key W wcmp zero (piece_key d (key_at st')) k) as (k1 & r1 & S2 & ->).
  destruct (C09_segmentation_unique _ _ _ _ _ _ _ S2 S1) as [-> _].
  unfold levels_of. cbn [flat_map fst snd]. rewrite !app_nil_r.
  destruct k as [|c0 [|c1 k]]; [congruence| |]; (split; [intros X|intros X]); try (cbn in X; lia); [reflexivity|].
  cbn [map]. f_equal. unfold weqb.
  assert (FX : forall l, filter (fun w => negb (match wcmp w zero with Eq => true | _ => false end)) l =
              filter (fun w => match wcmp w zero with Eq => false | _ => true end) l).
  { intros l. apply filter_ext. intros w. now destruct (wcmp w zero). }
  now rewrite !FX.
Qed.

(** * Concrete cases *)
Definition ex_d : list (pystr * list (N * N * N)) :=
  [(lit "a", [(100, 32, 2)%N]); (lit "b", [(101, 32, 2)%N]); (lit "c", [(102, 32, 2)%N])].
Definition ex_space (c : N) : bool := (N.eqb c 32 || N.eqb c 10)%bool.
Definition ex_parse (s : pystr) : list (pystr * tel) :=
  map (fun p => (fst p, tel_of (snd p))) (fst (coll_parse ex_space is_digit (fun c => N.sub c 48) [] s)).
Definition ex_run (s : pystr) : res tstate := setSortKeysQ (ducetQ ex_d) false 10 (TSt (ex_parse s) [] false).
Definition ex_keys (s : pystr) : res (list (pystr * option (list (list Q)))) :=
  do st <- ex_run s; Ok (map (fun p => (fst p, option_map (map (map this)) (key_at st (fst p)))) (ts_elts st)).
Definition ex_text : pystr := lit "&a < x << y &[before 1]b < z".

Lemma ex_elts : ex_parse ex_text =
  [(lit "x", TEl (lit "a") 1 0%N [1; 1] [] None None);
   (lit "y", TEl (lit "x") 2 0%N [1; 3] [] None None);
   (lit "z", TEl (lit "b") 1 1%N [2; 1] [] None None)].
Proof. vm_compute. reflexivity. Qed.
Example C58_ex_plain : plain_tailoring (ducetQ ex_d) (ex_parse ex_text).
Proof.
  rewrite ex_elts. split.
  - repeat constructor; cbn; intuition discriminate.
  - intros k e [E|[E|[E|[]]]]; injection E as <- <-; cbn [t_exp t_short t_key t_base]; repeat split; right.
    + right. now left.
    + left. now left.
    + right. right. now left.
Qed.
(** the keys of "&a < x << y &[before 1]b < z": x just after a, y just after x, z between a and b *)
Example C58_ex_keys : ex_keys ex_text =
  Ok [(lit "x", Some [[1001 # 10]; [32 # 1]; [2 # 1]]);
      (lit "y", Some [[1001 # 10]; [321 # 10]; [2 # 1]]);
      (lit "z", Some [[201 # 2]; [32 # 1]; [2 # 1]])]%Q.
Proof. vm_compute. reflexivity. Qed.
Example C58_ex_succeeds : exists st', ex_run ex_text = Ok st'.
Proof.
  unfold ex_run. eapply (C58_succeeds _ _ _ _ _ _ _ _ _ _ (fun k => if streq k (lit "y") then 1 else 0)).
  - exact C58_ex_plain.
  - rewrite ex_elts. intros k e [E|[E|[E|[]]]] (b & Hb & _); injection E as <- <-; cbn [t_base] in *.
    + destruct Hb as [X|[X|[X|[]]]]; discriminate X.
    + vm_compute. lia.
    + destruct Hb as [X|[X|[X|[]]]]; discriminate X.
  - rewrite ex_elts. intros k e [E|[E|[E|[]]]] N; injection E as <- <-; cbn [t_base] in *.
    + exists [Qc_of_nat 100], [Qc_of_nat 32], [Qc_of_nat 2]. repeat split; try discriminate.
    + exfalso. apply N. eexists. split; [now left|]. right. exists [1], 1, 3, [], []. repeat split. lia.
    + exists [Qc_of_nat 101], [Qc_of_nat 32], [Qc_of_nat 2]. repeat split; try discriminate.
  - rewrite ex_elts. cbn. lia.
Qed.
Example C58_ex_relation : exists st' va vx, ex_run ex_text = Ok st' /\ dkey Qccompare (Q2Qc 0) (ducetQ ex_d) (lit "a") = Ok va /\
  key_at st' (lit "x") = Some vx /\ diffLevelQ (Some va) (Some vx) = Ok 1%Z.
Proof.
  destruct C58_ex_succeeds as (st' & H). 
  assert (Hb : forall a b w, Qclt w (bumpQ a b w)).
  { intros a b w. unfold bumpQ, Qclt. rewrite this_plus. unfold inc. rewrite this_inv.
    assert (X : (0 < 1 # Pos.of_nat (10 ^ ndigits ((a + 1) * b)))%Q) by reflexivity. revert X. generalize (this w).
    intros q X. rewrite <- (Qplus_0_r q) at 1. now apply Qplus_lt_r. }
  assert (Hd : forall a b w, Qclt (dropQ a b w) w).
  { intros a b w. unfold dropQ, Qclt. rewrite this_minus. unfold beforeshift. rewrite this_inv.
    assert (X : (0 < 1 # Pos.of_nat (a + 1))%Q) by reflexivity. revert X. generalize (this w).
    intros q X. unfold Qminus. rewrite <- (Qplus_0_r q) at 2. apply Qplus_lt_r. reflexivity. }
  destruct (C58_relation Qc Qccompare Qclt (Q2Qc 0) (Q2Qc 1) bumpQ dropQ (ducetQ ex_d) _ _ _ st' Qc_lawful Hb Hd C58_ex_plain H
     (lit "x") (TEl (lit "a") 1 0%N [1; 1] [] None None)) as (vb & v & KB & KA & _ & R & _).
  { rewrite ex_elts. now left. }
  exists st', vb, v. split; [exact H|].
  destruct KB as [(TB & _)|(_ & DK)].
  - exfalso. destruct TB as (b & Hb' & _). rewrite ex_elts in Hb'. destruct Hb' as [X|[X|[X|[]]]]; discriminate X.
  - split; [exact DK|]. split; [exact KA|]. apply (R 0); try reflexivity; try lia; [discriminate|].
    cbn [t_base] in DK.
    assert (E : dkey Qccompare (Q2Qc 0) (ducetQ ex_d) (lit "a") = Ok [[Qc_of_nat 100]; [Qc_of_nat 32]; [Qc_of_nat 2]]) by reflexivity.
    rewrite E in DK. injection DK as <-. cbn [nth last]. vm_compute. discriminate.
Qed.
(** everything the tailoring puts at "b" stays after "a" and before "c" *)
Example C59_ex : exists st' vz, ex_run ex_text = Ok st' /\ key_at st' (lit "z") = Some vz /\
  (forall va, dkey Qccompare (Q2Qc 0) (ducetQ ex_d) (lit "a") = Ok va -> diffLevelQ (Some va) (Some vz) = Ok 1%Z) /\
  (forall vc, dkey Qccompare (Q2Qc 0) (ducetQ ex_d) (lit "c") = Ok vc -> diffLevelQ (Some vz) (Some vc) = Ok 1%Z).
Proof.
  destruct C58_ex_succeeds as (st' & H).
  destruct (C59_between ex_d _ _ _ st' C58_ex_plain H (lit "z") (TEl (lit "b") 1 1%N [2; 1] [] None None)) as (r & vr & v & SA & DK & KA & B).
  { rewrite ex_elts. right. right. now left. }
  assert (R : r = lit "b").
  { rewrite ex_elts in SA. inversion SA as [k e Hin N|k e r0 Hin T _]; subst.
    - destruct Hin as [X|[X|[X|[]]]]; try discriminate X. injection X as <-. reflexivity.
    - destruct Hin as [X|[X|[X|[]]]]; try discriminate X. injection X as <-. exfalso.
      destruct T as (b & Hb & _). destruct Hb as [X|[X|[X|[]]]]; discriminate X. }
  subst r.
  assert (E : dkey Qccompare (Q2Qc 0) (ducetQ ex_d) (lit "b") = Ok [[Qc_of_nat 101]; [Qc_of_nat 32]; [Qc_of_nat 2]]) by reflexivity.
  rewrite E in DK. injection DK as <-.
  exists st', v. split; [exact H|]. split; [exact KA|]. split.
  - intros va DA. apply (B (lit "a") va [] (Qc_of_nat 101) DA eq_refl); [vm_compute; discriminate|].
    assert (EA : dkey Qccompare (Q2Qc 0) (ducetQ ex_d) (lit "a") = Ok [[Qc_of_nat 100]; [Qc_of_nat 32]; [Qc_of_nat 2]]) by reflexivity.
    rewrite EA in DA. injection DA as <-. right. exists [], (Qc_of_nat 100), (Qc_of_nat 101), [], []. repeat split.
  - intros vc DC. 
    assert (EC : dkey Qccompare (Q2Qc 0) (ducetQ ex_d) (lit "c") = Ok [[Qc_of_nat 102]; [Qc_of_nat 32]; [Qc_of_nat 2]]) by reflexivity.
    apply (B (lit "c") vc [] (Qc_of_nat 101) DC eq_refl); [vm_compute; discriminate| |].
    + rewrite EC in DC. injection DC as <-. right. exists [], (Qc_of_nat 101), (Qc_of_nat 102), [], []. repeat split.
    + rewrite EC in DC. injection DC as <-. intros (t & X). cbn [nth] in X. discriminate X.
Qed.

(** * Where the plain reading fails *)
(** Two chains from the same base give equal keys, so their elements tie (ICU puts the later chain first). *)
Theorem C58_two_resets_refuted :
  ex_keys (lit "&a < x &a < y") =
  Ok [(lit "x", Some [[1001 # 10]; [32 # 1]; [2 # 1]]); (lit "y", Some [[1001 # 10]; [32 # 1]; [2 # 1]])]%Q.
Proof. vm_compute. reflexivity. Qed.
(** An element given as following itself, and a chain with an empty base, stop the calculation. *)
Theorem C58_self_reset_refuted : ex_keys (lit "&a < a") = Raise AttributeError.
Proof. vm_compute. reflexivity. Qed.
Theorem C58_empty_base_refuted : ex_keys (lit "& < q") = Raise IndexError.
Proof. vm_compute. reflexivity. Qed.
(** An expansion that mentions an element without a key yet stops it too. *)
Theorem C58_forward_expansion_refuted : ex_keys (lit "&a < x/y &c < y") = Raise AttributeError.
Proof. vm_compute. reflexivity. Qed.
(** What follows an element with an expansion that sorts later lands after the expansion: here "y", two places after
    "a", has a bigger primary weight than "c". *)
Theorem C58_expansion_place_refuted :
  ex_keys (lit "&a < x/c < y") =
  Ok [(lit "x", Some [[1001 # 10; 102 # 1]; [32 # 1; 32 # 1]; [2 # 1; 2 # 1]]);
      (lit "y", Some [[102 # 1; 11 # 10]; [32 # 1; 0 # 1]; [2 # 1; 0 # 1]])]%Q.
Proof. vm_compute. reflexivity. Qed.
(** Asking for the key of an element before the keys are calculated fails. *)
Theorem C58_unset_key_refuted :
  forall W (wcmp : W -> W -> comparison) (zero : W) d st k e,
    dget streq (ts_elts st) k = Some e -> t_key e = None -> k <> [] ->
    coll_sortKey wcmp zero d st k = Raise AttributeError.
Proof.
  intros W wcmp zero d st k e He Hk Nk. unfold coll_sortKey.
  assert (X : longest_r (look_fn d st) k (length k) = Raise AttributeError).
  { destruct (length k) eqn:L; [destruct k; [congruence|discriminate]|]. cbn [longest_r]. rewrite <- L, firstn_all.
    unfold look_fn, look_extra. rewrite He, Hk. reflexivity. }
  assert (Y : sortkey_loop_r (look_fn d st) (length k) k ([], [], []) = Raise AttributeError).
  { destruct k as [|c k]; [congruence|]. cbn [length] in *. cbn [sortkey_loop_r]. cbn [length]. rewrite X. reflexivity. }
  rewrite Y. reflexivity.
Qed.

(** C59: tailored elements stay near the place their chain starts at (exact rational weights). *)
From Coq Require Import QArith Qcanon Lqa.
From Verif Require Import Py PyFacts M_UnicodeSets P_UnicodeSets M_Collation P_Collation P_Collation2 T_Collation
  M_Tailor P_Tailor T_Tailor M_TailorQ.
Open Scope nat_scope.

(** * Rationals *)
Lemma Qc_lawful : lawful Qccompare Qclt.
Proof.
  split; [|split].
  - intros x y. destruct (Qccompare x y) eqn:E; constructor.
    + now apply Qceq_alt.
    + now apply Qclt_alt.
    + now apply Qcgt_alt.
  - intros x H. apply Qclt_not_eq in H. congruence.
  - intros x y z. apply Qclt_trans.
Qed.

Lemma ndigits_spec m : m < 10 ^ ndigits m /\ (0 < m -> 10 ^ (ndigits m - 1) <= m).
Proof.
  unfold ndigits. assert (H : forall f m, m <= f -> m < 10 ^ ndigits_fuel f m /\
    (0 < m -> 10 ^ (ndigits_fuel f m - 1) <= m) /\ 0 < ndigits_fuel f m).
  { clear m. induction f as [|f IH]; intros m Hm.
    - assert (m = 0) as -> by lia. cbn. lia.
    - cbn [ndigits_fuel]. destruct (Nat.ltb_spec m 10) as [L|L].
      + cbn. lia.
      + assert (D : m / 10 <= f) by (pose proof (Nat.div_lt m 10); lia).
        destruct (IH (m / 10) D) as (I1 & I2 & I3).
        set (g := ndigits_fuel f (m / 10)) in *.
        pose proof (Nat.div_mod m 10 ltac:(lia)) as DM. pose proof (Nat.mod_upper_bound m 10 ltac:(lia)).
        assert (P : 10 ^ S g = 10 * 10 ^ g) by reflexivity.
        assert (P2 : 10 ^ g = 10 * 10 ^ (g - 1)).
        { replace g with (S (g - 1)) at 1 by lia. reflexivity. }
        split; [lia|]. split; [|lia]. intros _. replace (S g - 1) with g by lia.
        assert (0 < m / 10) by (apply Nat.div_str_pos; lia). specialize (I2 H0). lia. }
  destruct (H m m (le_n m)) as (A & B & _). auto.
Qed.

Definition offset (nb n a b : nat) : Qc := (Qc_of_nat a * inc nb n - Qc_of_nat b * beforeshift nb)%Qc.

Lemma this_red q : (this (Q2Qc q) == q)%Q.
Proof. apply Qred_correct. Qed.
Lemma this_nat m : (this (Qc_of_nat m) == Z.of_nat m # 1)%Q.
Proof. apply this_red. Qed.
Lemma this_inv m : (this (Qc_inv_nat m) == 1 # Pos.of_nat m)%Q.
Proof. apply this_red. Qed.
Lemma this_plus x y : (this (x + y)%Qc == this x + this y)%Q.
Proof. apply Qred_correct. Qed.
Lemma this_mult x y : (this (x * y)%Qc == this x * this y)%Q.
Proof. apply Qred_correct. Qed.
Lemma this_opp x : (this (- x)%Qc == - this x)%Q.
Proof. apply Qred_correct. Qed.
Lemma this_minus x y : (this (x - y)%Qc == this x - this y)%Q.
Proof. unfold Qcminus. rewrite this_plus, this_opp. reflexivity. Qed.

Lemma Pos_of_nat_Z m : 0 < m -> Z.pos (Pos.of_nat m) = Z.of_nat m.
Proof. intros H. rewrite <- (Nat2Pos.id m) at 2 by lia. now rewrite positive_nat_Z. Qed.

Lemma this_offset nb n a b :
  (this (offset nb n a b) == (Z.of_nat a # 1) * (1 # Pos.of_nat (10 ^ ndigits ((nb + 1) * n))) -
                             (Z.of_nat b # 1) * (1 # Pos.of_nat (nb + 1)))%Q.
Proof.
  unfold offset, inc, beforeshift. rewrite this_minus, !this_mult, !this_nat, !this_inv. reflexivity.
Qed.

Lemma Qmul_nat_inv a m : 0 < m -> ((Z.of_nat a # 1) * (1 # Pos.of_nat m) == Z.of_nat a # Pos.of_nat m)%Q.
Proof. intros H. unfold Qeq. cbn. rewrite !Z.mul_1_r. lia. Qed.
Lemma pow_pos m : 0 < 10 ^ m.
Proof. induction m; cbn; lia. Qed.

Lemma part_up nb n a : a <= n -> ((Z.of_nat a # 1) * (1 # Pos.of_nat (10 ^ ndigits ((nb + 1) * n))) < 1 # Pos.of_nat (nb + 1))%Q.
Proof.
  intros H. rewrite Qmul_nat_inv by apply pow_pos. unfold Qlt. cbn [Qnum Qden].
  rewrite !Pos_of_nat_Z by (try apply pow_pos; lia).
  pose proof (proj1 (ndigits_spec ((nb + 1) * n))) as D.
  assert (X : a * (nb + 1) < 10 ^ ndigits ((nb + 1) * n)) by nia. lia.
Qed.
Lemma part_lo nb n a : (0 <= (Z.of_nat a # 1) * (1 # Pos.of_nat (10 ^ ndigits ((nb + 1) * n))))%Q.
Proof. unfold Qle. cbn. lia. Qed.
Lemma part_b nb b : b <= nb -> ((Z.of_nat b # 1) * (1 # Pos.of_nat (nb + 1)) < 1)%Q.
Proof.
  intros H. rewrite Qmul_nat_inv by lia. unfold Qlt. cbn [Qnum Qden]. rewrite Pos_of_nat_Z by lia. lia.
Qed.
Lemma part_b0 nb b : (0 <= (Z.of_nat b # 1) * (1 # Pos.of_nat (nb + 1)))%Q.
Proof. unfold Qle. cbn. lia. Qed.

Lemma offset_bounds nb n a b : a <= n -> b <= nb ->
  (- (1) < offset nb n a b)%Qc /\ (offset nb n a b < beforeshift nb)%Qc /\ (b = 0 -> (0 <= offset nb n a b)%Qc).
Proof.
  intros Ha Hb. unfold Qclt, Qcle. rewrite this_offset. unfold beforeshift. rewrite this_inv.
  pose proof (part_up nb n a Ha). pose proof (part_lo nb n a). pose proof (part_b nb b Hb). pose proof (part_b0 nb b).
  set (A := ((Z.of_nat a # 1) * (1 # Pos.of_nat (10 ^ ndigits ((nb + 1) * n))))%Q) in *.
  set (B := ((Z.of_nat b # 1) * (1 # Pos.of_nat (nb + 1)))%Q) in *.
  split; [|split].
  - change (this (- (1))%Qc) with (- (1))%Q. lra.
  - lra.
  - intros ->. change (this 0%Qc) with 0%Q. assert (B == 0)%Q by reflexivity. lra.
Qed.
Lemma offset_0 nb n : offset nb n 0 0 = 0%Qc.
Proof. unfold offset. change (Qc_of_nat 0) with 0%Qc. ring. Qed.
Lemma Qc_of_nat_S a : Qc_of_nat (S a) = (Qc_of_nat a + 1)%Qc.
Proof.
  apply Qc_is_canon. rewrite this_plus, !this_nat. change (this 1%Qc) with 1%Q. unfold Qeq. cbn. lia.
Qed.
Lemma offset_bump nb n a b w : bumpQ nb n (w + offset nb n a b) = (w + offset nb n (S a) b)%Qc.
Proof. unfold bumpQ, offset. rewrite Qc_of_nat_S. ring. Qed.
Lemma offset_drop nb n a b w : dropQ nb n (w + offset nb n a b) = (w + offset nb n a (S b))%Qc.
Proof. unfold dropQ, offset. rewrite Qc_of_nat_S. ring. Qed.

(** * Specification *)
(** the string at which the chain of bases of [k] leaves the tailoring *)
Inductive starts_at (elts : list (pystr * tel)) : pystr -> pystr -> Prop :=
| start_here k e : In (k, e) elts -> ~ tailored_base elts e -> starts_at elts k (t_base e)
| start_base k e r : In (k, e) elts -> tailored_base elts e -> starts_at elts (t_base e) r -> starts_at elts k r.
(** the elements given with a [before] of level [j + 1] *)
Definition no_before (elts : list (pystr * tel)) (j : nat) : Prop :=
  forall k e, In (k, e) elts -> t_level e = S j -> t_before e <> N.of_nat (S j).

Section Chain.
  Variable d : list (pystr * list (Qc * Qc * Qc)).
  Variable elts : list (pystr * tel).
  Hypothesis PT : plain_tailoring d elts.
  Notation nb := (num_befores elts).
  Notation n := (length elts).
  Notation TKD := (tkd Qccompare (Q2Qc 0) bumpQ dropQ d nb n elts).

  Definition moved (a b : nat) (x y : list Qc) : Prop :=
    (x = [] /\ y = [] /\ a = 0 /\ b = 0) \/
    exists pre w, x = pre ++ [w] /\ y = pre ++ [(w + offset nb n a b)%Qc].
  Lemma moved_refl x : moved 0 0 x x.
  Proof.
    destruct x as [|w x]; [left; auto|right]. destruct (@exists_last _ (w :: x) ltac:(discriminate)) as (p & u & E).
    exists p, u. rewrite E. split; [reflexivity|]. rewrite offset_0. now rewrite Qcplus_0_r.
  Qed.

  Definition has_before (k : pystr) : bool :=
    match dget streq elts k with Some e => N.ltb 0 (t_before e) | None => false end.
  Definition befores (l : list pystr) : nat := length (filter has_before l).

  Lemma befores_le l : NoDup l -> (forall x, In x l -> In x (dkeys elts)) -> befores l <= nb.
  Proof.
    intros ND H. unfold befores, num_befores.
    rewrite <- (map_length fst (filter (fun p => N.ltb 0 (t_before (snd p))) elts)).
    apply NoDup_incl_length; [now apply NoDup_filter|].
    intros x Hx. apply filter_In in Hx as [Hx Hb]. unfold has_before in Hb.
    destruct (dget streq elts x) as [e|] eqn:E; [|discriminate].
    apply in_map_iff. exists (x, e). split; [reflexivity|]. apply filter_In. split; [|exact Hb].
    now apply (dget_In _ streq_spec).
  Qed.

  Definition sum3 (f : nat -> nat) : nat := f 0 + f 1 + f 2.
  Lemma sum3_le f j : j < 3 -> f j <= sum3 f.
  Proof. intros H. unfold sum3. destruct j as [|[|[|j]]]; lia. Qed.
  Definition upd (f : nat -> nat) (i x : nat) : nat -> nat := fun j => if Nat.eqb j i then x else f j.
  Lemma sum3_upd f i : i < 3 -> sum3 (upd f i (S (f i))) = S (sum3 f).
  Proof. intros H. unfold sum3, upd. destruct i as [|[|[|i]]]; cbn; lia. Qed.

  Definition at_most (m : nat) (l : list pystr) (a b : nat -> nat) : Prop :=
    sum3 a <= m /\ sum3 b <= befores l /\ forall j, no_before elts j -> b j = 0.

  Lemma step m k e vb v vr a b (l : list pystr) : In (k, e) elts ->
    length vb = 3 -> shift_key bumpQ dropQ nb n e vb = Ok v ->
    at_most m l a b -> (forall j, j < 3 -> moved (a j) (b j) (nth j vr []) (nth j vb [])) ->
    exists a' b', at_most (S m) (k :: l) a' b' /\ (forall j, j < 3 -> moved (a' j) (b' j) (nth j vr []) (nth j v [])).
  Proof.
    intros Hin L HS (A & B & NB) M.
    assert (B' : befores l <= befores (k :: l)) by (unfold befores; cbn; destruct (has_before k); cbn; lia).
    destruct (shift_spec bumpQ dropQ nb n e vb v L HS) as [[_ ->]|[H3 (_ & _ & HO & pre & w & E1 & E2)]].
    - exists a, b. split; [|exact M]. repeat split; try lia. exact NB.
    - set (i := match t_level e with 0 => 2 | S i => i end) in *.
      assert (Hi : i < 3) by (unfold i; destruct (t_level e); lia).
      destruct (M i Hi) as [(_ & X & _)|(p & w0 & X1 & X2)]; [rewrite X in E1; now destruct pre|].
      rewrite E1 in X2. apply app_inj_tail in X2 as [-> ->].
      destruct (if N.eqb (t_before e) 0 then 0 else if N.eqb (t_before e) (N.of_nat (t_level e)) then 1 else 0) as [|z] eqn:EZ.
      + assert (F : nth i v [] = p ++ [bumpQ nb n (w0 + offset nb n (a i) (b i))%Qc]).
        { rewrite E2. destruct (N.eqb (t_before e) 0); [reflexivity|].
          destruct (N.eqb (t_before e) (N.of_nat (t_level e))); [discriminate|reflexivity]. }
        exists (upd a i (S (a i))), b. split.
        * repeat split; [rewrite sum3_upd by exact Hi; lia|lia|exact NB].
        * intros j Hj. unfold upd. destruct (Nat.eqb_spec j i) as [->|N]; [|rewrite HO by exact N; now apply M].
          right. exists p, w0. split; [exact X1|]. rewrite F. now rewrite offset_bump.
      + assert (BE : t_before e = N.of_nat (t_level e) /\ t_before e <> 0%N).
        { destruct (N.eqb_spec (t_before e) 0); [discriminate|].
          destruct (N.eqb_spec (t_before e) (N.of_nat (t_level e))); [auto|discriminate]. }
        destruct BE as [BE1 BE2].
        assert (LI : t_level e = S i) by (unfold i; destruct (t_level e); [cbn in BE1; lia|reflexivity]).
        assert (F : nth i v [] = p ++ [dropQ nb n (w0 + offset nb n (a i) (b i))%Qc]).
        { rewrite E2. destruct (N.eqb_spec (t_before e) 0); [contradiction|].
          destruct (N.eqb_spec (t_before e) (N.of_nat (t_level e))); [reflexivity|contradiction]. }
        assert (HB : has_before k = true).
        { unfold has_before. rewrite (proj2 (get_in d elts PT k e) Hin). apply N.ltb_lt. lia. }
        exists a, (upd b i (S (b i))). split.
        * split; [lia|]. split.
          -- rewrite sum3_upd by exact Hi. unfold befores in *. cbn [filter]. rewrite HB. cbn [length]. lia.
          -- intros j NBj. unfold upd. destruct (Nat.eqb_spec j i) as [->|N]; [|now apply NB].
             exfalso. apply (NBj k e Hin LI). congruence.
        * intros j Hj. unfold upd. destruct (Nat.eqb_spec j i) as [->|N]; [|rewrite HO by exact N; now apply M].
          right. exists p, w0. split; [exact X1|]. rewrite F. now rewrite offset_drop.
  Qed.

  Lemma chain m k v : TKD m k v -> exists l r vr a b,
    NoDup l /\ (forall x, In x l -> In x (dkeys elts) /\ exists m' v', TKD m' x v' /\ m' <= m) /\ length l = m /\
    starts_at elts k r /\ dkey Qccompare (Q2Qc 0) d r = Ok vr /\ length vr = 3 /\ length v = 3 /\
    at_most m l a b /\ (forall j, j < 3 -> moved (a j) (b j) (nth j vr []) (nth j v [])).
  Proof.
    induction 1 as [m k e b vb v He Hb Ho Ht IH Hs|k e vb v He Hb Hd Hs].
    - destruct IH as (l & r & vr & a & c & ND & IN & LL & SA & DK & L1 & L2 & AM & M).
      apply (get_in d elts PT) in He, Hb.
      destruct (step m k e vb v vr a c l He L2 Hs AM M) as (a' & c' & AM' & M').
      assert (T : TKD (S m) k v) by (econstructor; try apply (get_in d elts PT); eassumption).
      exists (k :: l), r, vr, a', c'. split; [|split; [|split; [|split; [|split; [|split; [|split; [|split]]]]]]]; auto.
      + constructor; [|exact ND]. intros Hin. destruct (IN k Hin) as (_ & m' & v' & T' & Hm).
        assert (S m = m'); [|lia]. eapply tkd_det; [exact (noexp0 d elts PT)|exact (allknown0 d elts PT)|exact T|exact T'] || (eapply tkd_det; eassumption).
      + intros x [<-|Hin].
        * split; [apply in_map_iff; exists (k, e); auto|]. eauto.
        * destruct (IN x Hin) as (I1 & m' & v' & T' & Hm). split; [exact I1|]. exists m', v'. split; [exact T'|lia].
      + cbn. now rewrite LL.
      + eapply start_base; [exact He| |exact SA]. exists b. split; [exact Hb|now apply order_leb_spec].
      + eapply shift_spec in Hs; [|exact L2]. destruct Hs as [[_ ->]|[_ (_ & X & _)]]; [exact L2|exact X].
    - apply (get_in d elts PT) in He.
      pose proof (dkey_len Qccompare (Q2Qc 0) d _ _ Hd) as L2.
      assert (AM : at_most 0 [] (fun _ => 0) (fun _ => 0)) by (repeat split; cbn; lia).
      destruct (step 0 k e vb v vb _ _ [] He L2 Hs AM (fun j _ => moved_refl _)) as (a' & c' & AM' & M').
      exists [k], (t_base e), vb, a', c'. split; [|split; [|split; [|split; [|split; [|split; [|split; [|split]]]]]]]; auto.
      + repeat constructor. tauto.
      + intros x [<-|[]]. split; [apply in_map_iff; exists (k, e); auto|]. exists 1, v. split; [|lia].
        eapply tkd_root; try eassumption. now apply (get_in d elts PT).
      + apply start_here; [exact He|]. intros (b & H1 & H2). apply (get_in d elts PT) in H1. apply order_leb_spec in H2.
        rewrite (Hb b H1) in H2. discriminate.
      + eapply shift_spec in Hs; [|exact L2]. destruct Hs as [[_ ->]|[_ (_ & X & _)]]; [exact L2|exact X].
  Qed.
End Chain.

(** * C59 *)
(** Every tailored key has the shape of the DUCET key its chain starts at. At each level only the last weight
    differs, by more than -1 and less than 1/(b+1) where b is the number of elements with a before; and it does
    not go down at a level at which nothing is put before its base. *)
Theorem C59_bounds : forall d elts force fuel st',
  plain_tailoring d elts ->
  setSortKeysQ d force fuel (TSt elts [] false) = Ok st' ->
  forall k e, In (k, e) elts ->
  exists r vr v, starts_at elts k r /\ dkey Qccompare (Q2Qc 0) d r = Ok vr /\ key_at st' k = Some v /\
    length vr = 3 /\ length v = 3 /\
    forall j, j < 3 ->
      (nth j vr [] = [] /\ nth j v [] = []) \/
      exists pre w x, nth j vr [] = pre ++ [w] /\ nth j v [] = pre ++ [(w + x)%Qc] /\
        (- (1) < x)%Qc /\ (x < Qc_inv_nat (num_befores elts + 1))%Qc /\ (no_before elts j -> (0 <= x)%Qc).
Proof.
  intros d elts force fuel st' PT H k e Hin.
  destruct (go_good Qccompare (Q2Qc 0) (Q2Qc 1) bumpQ dropQ d elts PT force fuel st' H) as [_ G].
  apply (get_in d elts PT) in Hin.
  destruct (G k e Hin) as (e1 & r1 & v & A1 & A2 & A3 & A4 & A5 & A6 & T).
  apply tk_tkd in T as (m & T).
  destruct (chain d elts PT m k v T) as (l & r & vr & a & b & ND & IN & LL & SA & DK & L1 & L2 & (S1 & S2 & S3) & M).
  exists r, vr, v. split; [exact SA|]. split; [exact DK|].
  split; [unfold key_at; now rewrite A1, A3, A6|]. split; [exact L1|]. split; [exact L2|].
  assert (LN : m <= length elts).
  { rewrite <- LL, <- (map_length fst elts). apply NoDup_incl_length; [exact ND|]. intros x Hx. now apply IN. }
  assert (BN : befores elts l <= num_befores elts) by (apply befores_le; [exact ND|]; intros x Hx; now apply IN).
  intros j Hj. destruct (M j Hj) as [(X1 & X2 & _)|(pre & w & X1 & X2)]; [left; auto|right].
  exists pre, w, (offset (num_befores elts) (length elts) (a j) (b j)). split; [exact X1|]. split; [exact X2|].
  destruct (offset_bounds (num_befores elts) (length elts) (a j) (b j)) as (B1 & B2 & B3).
  - pose proof (sum3_le a j Hj). lia.
  - pose proof (sum3_le b j Hj). lia.
  - split; [exact B1|]. split; [exact B2|]. intros NB. apply B3. now apply S3.
Qed.

(** ** DUCET neighbours *)
Definition whole (w : Qc) : Prop := exists m, w = Qc_of_nat m.
Lemma whole_ducet d p raw t : dget streq (ducetQ d) p = Some raw -> In t raw ->
  whole (fst (fst t)) /\ whole (snd (fst t)) /\ whole (snd t).
Proof.
  unfold ducetQ. intros H Ht. apply (dget_In _ streq_spec) in H. apply in_map_iff in H as ([k r] & E & _).
  injection E as _ <-. apply in_map_iff in Ht as (t0 & <- & _). cbn. repeat split; eexists; reflexivity.
Qed.
Lemma whole_dkey d k v : dkey Qccompare (Q2Qc 0) (ducetQ d) k = Ok v -> forall j x, In x (nth j v []) -> whole x.
Proof.
  unfold dkey. destruct (C09_sort_key _ Qccompare (Q2Qc 0) (key_of (ducetQ d) (fun _ => None) None) k) as (ks & rest & HS & ->).
  intros H. injection H as <-. 
  assert (A : forall key, In key ks -> (forall x, In x (fst (fst key)) -> whole x) /\
             (forall x, In x (snd (fst key)) -> whole x) /\ (forall x, In x (snd key) -> whole x)).
  { induction HS as [|p q key keys rest Hp Hl _ _ IH]; [intros ? []|]. intros key' [<-|H]; [|now apply IH].
    unfold key_of in Hl.
    assert (Z : match dget streq (ducetQ d) p with Some raw => zip3 raw | None => None end = Some key).
    { destruct (match dget streq (ducetQ d) p with Some raw => zip3 raw | None => None end); [exact Hl|discriminate]. }
    clear Hl. destruct (dget streq (ducetQ d) p) as [raw|] eqn:E; [|discriminate].
    destruct raw as [|t0 raw]; [discriminate|]. cbn [zip3] in Z. injection Z as <-. cbn [fst snd].
    repeat split; intros x Hx; change (In x (map (fun t => fst (fst t)) (t0 :: raw))) in Hx ||
      change (In x (map (fun t => snd (fst t)) (t0 :: raw))) in Hx || change (In x (map snd (t0 :: raw))) in Hx;
      apply in_map_iff in Hx as (t & <- & Ht); eapply whole_ducet; eassumption. }
  assert (B : forall (f : key3 -> list Qc) x, (forall key y, In key ks -> In y (f key) -> whole y) ->
     In x (match k with [_] => flat_map f ks | _ => filter (fun w => negb (weqb Qccompare w (Q2Qc 0))) (flat_map f ks) end) -> whole x).
  { intros f x Hf Hx. assert (Hx' : In x (flat_map f ks)).
    { destruct k as [|c0 [|c1 k]]; [apply filter_In in Hx; apply Hx|exact Hx|apply filter_In in Hx; apply Hx]. }
    apply in_flat_map in Hx' as (key & H1 & H2). eapply Hf; eassumption. }
  intros j x Hx. unfold levels_of in Hx. destruct j as [|[|[|j]]]; cbn [nth] in Hx.
  - eapply (B (fun key => fst (fst key))); [|exact Hx]. intros key y H1 H2. destruct (A key H1) as (A1 & A2 & A3). now apply A1.
  - eapply (B (fun key => snd (fst key))); [|exact Hx]. intros key y H1 H2. destruct (A key H1) as (A1 & A2 & A3). now apply A2.
  - eapply (B (fun key => snd key)); [|exact Hx]. intros key y H1 H2. destruct (A key H1) as (A1 & A2 & A3). now apply A3.
  - destruct j; destruct Hx.
Qed.

Lemma whole_gap x y : whole x -> whole y -> (x < y)%Qc -> (x + 1 <= y)%Qc.
Proof.
  intros (a & ->) (b & ->). unfold Qclt, Qcle. rewrite this_plus, !this_nat. change (this 1%Qc) with 1%Q.
  unfold Qlt, Qle. cbn. lia.
Qed.
Lemma whole_pos x : whole x -> x <> Q2Qc 0 -> (Q2Qc 0 < x)%Qc.
Proof.
  intros (a & ->) N. assert (Ha : 0 < a) by (destruct a; [exfalso; apply N; reflexivity|lia]).
  unfold Qclt. rewrite this_nat. change (this (Q2Qc 0)) with 0%Q. unfold Qlt. cbn. lia.
Qed.
Lemma whole_nonneg x : whole x -> (Q2Qc 0 <= x)%Qc.
Proof.
  intros (a & ->). unfold Qcle. rewrite this_nat. change (this (Q2Qc 0)) with 0%Q. unfold Qle. cbn. lia.
Qed.

Notation szQ := (stripzero Qccompare (Q2Qc 0)).
Lemma sz_mid p y r : y <> Q2Qc 0 -> exists r', szQ (p ++ y :: r) = p ++ y :: r'.
Proof.
  intros N. destruct (sz_spec Qccompare (Q2Qc 0) (law_eq _ _ Qc_lawful) r) as [A (m & B)].
  exists (szQ r). rewrite B at 1.
  replace (p ++ y :: szQ r ++ repeat (Q2Qc 0) m) with ((p ++ y :: szQ r) ++ repeat (Q2Qc 0) m) by (now rewrite <- app_assoc).
  apply sz_app; [apply (law_eq _ _ Qc_lawful)|]. intros (u & E).
  destruct (szQ r) as [|z s].
  - apply app_inj_tail in E as [_ E]. contradiction.
  - apply A. destruct (@exists_last _ (z :: s) ltac:(discriminate)) as (q & w & Eq). rewrite Eq in *.
    replace (p ++ y :: q ++ [w]) with ((p ++ y :: q) ++ [w]) in E by (now rewrite <- app_assoc).
    apply app_inj_tail in E as [_ ->]. exists q. reflexivity.
Qed.
Lemma cmp_prefix p a b s t q m : (a < b)%Qc -> p ++ a :: s = q ++ repeat (Q2Qc 0) m ->
  lcmp Qccompare q (p ++ b :: t) = Lt.
Proof.
  intros HL E. apply (lcmp_lt_iff _ (law_eq _ _ Qc_lawful)).
  destruct (app_eq_app _ _ _ _ E) as (z & [[E1 E2]|[E1 E2]]).
  - exists q. left. subst p. destruct z as [|z0 z].
    + exists b, t. now rewrite !app_nil_r.
    + exists z0, (z ++ b :: t). now rewrite <- app_assoc.
  - destruct z as [|z0 z].
    + exists q. left. exists b, t. rewrite app_nil_r in E1. now subst.
    + cbn in E2. injection E2 as <- E2. exists p. right. exists a, z, b, t. subst q. auto.
Qed.
Lemma sz_cmp p a b s t : (a < b)%Qc -> lcmp Qccompare (szQ (p ++ a :: s)) (p ++ b :: t) = Lt.
Proof.
  intros HL. destruct (sz_spec Qccompare (Q2Qc 0) (law_eq _ _ Qc_lawful) (p ++ a :: s)) as [_ (m & B)].
  eapply cmp_prefix; eassumption.
Qed.
Lemma sz_prefix p c r : lcmp Qccompare (szQ p) (p ++ c :: r) = Lt.
Proof.
  destruct (sz_spec Qccompare (Q2Qc 0) (law_eq _ _ Qc_lawful) p) as [_ (m & B)].
  apply (lcmp_lt_iff _ (law_eq _ _ Qc_lawful)). exists (szQ p). left.
  destruct m as [|m].
  - cbn in B. rewrite app_nil_r in B. exists c, r. now rewrite <- B.
  - exists (Q2Qc 0), (repeat (Q2Qc 0) m ++ c :: r). split; [reflexivity|]. rewrite B at 1. now rewrite <- app_assoc.
Qed.
Lemma diff_first (u v : list (list Qc)) : length u = 3 -> length v = 3 ->
  lcmp Qccompare (szQ (nth 0 u [])) (szQ (nth 0 v [])) = Lt -> diffLevelQ (Some u) (Some v) = Ok 1%Z.
Proof.
  intros Hu Hv H. apply len3 in Hu as (a & b & c & ->). apply len3 in Hv as (x & y & z & ->). cbn [nth] in H.
  unfold diffLevel. cbn [diff_from level nth_error bind]. now rewrite H.
Qed.
(** adding less than 1 in size to the last weight keeps a comparison that is decided by whole weights *)
Lemma split_last {A} (pre p : list A) w a s : pre ++ [w] = p ++ a :: s ->
  (s = [] /\ pre = p /\ w = a) \/ exists q, s = q ++ [w] /\ pre = p ++ a :: q.
Proof.
  intros E. destruct s as [|s0 s].
  - apply app_inj_tail in E as [-> ->]. now left.
  - right. destruct (@exists_last _ (s0 :: s) ltac:(discriminate)) as (q & z & Eq). rewrite Eq in E.
    replace (p ++ a :: q ++ [z]) with ((p ++ a :: q) ++ [z]) in E by (now rewrite <- app_assoc).
    apply app_inj_tail in E as [-> ->]. exists q. split; [exact Eq|reflexivity].
Qed.

(** A string [u] of DUCET whose primary key is smaller than that of the start of the chain sorts before everything in
    the chain; one whose primary key is bigger (and no continuation of it) sorts after everything in the chain. *)
Theorem C59_between : forall d elts force fuel st',
  plain_tailoring (ducetQ d) elts ->
  setSortKeysQ (ducetQ d) force fuel (TSt elts [] false) = Ok st' ->
  forall k e, In (k, e) elts ->
  exists r vr v, starts_at elts k r /\ dkey Qccompare (Q2Qc 0) (ducetQ d) r = Ok vr /\ key_at st' k = Some v /\
    forall u vu pre w, dkey Qccompare (Q2Qc 0) (ducetQ d) u = Ok vu ->
      nth 0 vr [] = pre ++ [w] -> w <> Q2Qc 0 ->
      (lex_lt Qclt (nth 0 vu []) (nth 0 vr []) -> diffLevelQ (Some vu) (Some v) = Ok 1%Z) /\
      (lex_lt Qclt (nth 0 vr []) (nth 0 vu []) -> (~ exists t, nth 0 vu [] = nth 0 vr [] ++ t) ->
       diffLevelQ (Some v) (Some vu) = Ok 1%Z).
Proof.
  intros d elts force fuel st' PT H k e Hin.
  destruct (C59_bounds (ducetQ d) elts force fuel st' PT H k e Hin) as (r & vr & v & SA & DK & KA & L1 & L2 & B).
  exists r, vr, v. split; [exact SA|]. split; [exact DK|]. split; [exact KA|].
  intros u vu pre w DU EW NW. pose proof (dkey_len _ _ _ _ _ DU) as LU.
  destruct (B 0 ltac:(lia)) as [[X _]|(pre' & w' & x & E1 & E2 & X1 & X2 & _)]; [rewrite X in EW; now destruct pre|].
  rewrite EW in E1. apply app_inj_tail in E1 as [<- <-].
  assert (WW : whole w) by (eapply (whole_dkey _ _ _ DK 0); rewrite EW; apply in_or_app; right; now left).
  assert (WU : forall y, In y (nth 0 vu []) -> whole y) by (intros y Hy; eapply whole_dkey; [exact DU|exact Hy]).
  assert (WR : forall y, In y (nth 0 vr []) -> whole y) by (intros y Hy; eapply whole_dkey; [exact DK|exact Hy]).
  assert (LE : (x < 1)%Qc).
  { eapply Qclt_le_trans; [exact X2|]. unfold Qcle. rewrite this_inv. change (this 1%Qc) with 1%Q. unfold Qle. cbn. lia. }
  assert (P : (Q2Qc 0 < w + x)%Qc).
  { pose proof (whole_gap (Q2Qc 0) w ltac:(exists 0; reflexivity) WW (whole_pos w WW NW)) as G.
    unfold Qclt, Qcle in *. rewrite this_plus in *. change (this (Q2Qc 0)) with 0%Q in *. change (this 1%Qc) with 1%Q in *.
    change (this (- (1))%Qc) with (- (1))%Q in *. lra. }
  assert (NZ : (w + x)%Qc <> Q2Qc 0) by (intros X; rewrite X in P; apply Qclt_not_eq in P; congruence).
  assert (SV : szQ (nth 0 v []) = pre ++ [(w + x)%Qc]) by (rewrite E2; apply (sz_snoc _ _ _ Qc_lawful); exact NZ).
  split.
  - intros HL. apply diff_first; [exact LU|exact L2|]. rewrite SV.
    destruct HL as [(c & rr & E)|(p & a & b & s & t & E3 & E4 & HL)].
    + rewrite EW in E. apply split_last in E as [(-> & -> & ->)|(q & -> & ->)].
      * apply sz_prefix.
      * rewrite <- app_assoc. apply sz_prefix.
    + rewrite EW in E4. rewrite E3.
      assert (WA : whole a) by (apply WU; rewrite E3; apply in_or_app; right; now left).
      apply split_last in E4 as [(-> & -> & ->)|(q & -> & ->)].
      * apply sz_cmp. pose proof (whole_gap a b WA WW HL) as G.
        unfold Qclt, Qcle in *. rewrite this_plus in *. change (this 1%Qc) with 1%Q in *.
        change (this (- (1))%Qc) with (- (1))%Q in *. lra.
      * rewrite <- app_assoc. now apply sz_cmp.
  - intros HL NE. apply diff_first; [exact L2|exact LU|]. rewrite SV.
    destruct HL as [(c & rr & E)|(p & a & b & s & t & E3 & E4 & HL)]; [exfalso; apply NE; eauto|].
    assert (WA : whole a) by (apply WR; rewrite E3; apply in_or_app; right; now left).
    assert (WB : whole b) by (apply WU; rewrite E4; apply in_or_app; right; now left).
    assert (NB : b <> Q2Qc 0).
    { intros ->. pose proof (whole_nonneg a WA) as G. apply Qcle_not_lt in G. contradiction. }
    rewrite E4. destruct (sz_mid p b t NB) as (r' & ->).
    assert (CMP : forall a' s', (a' < b)%Qc -> lcmp Qccompare (p ++ a' :: s') (p ++ b :: r') = Lt).
    { intros a' s' HL'. apply (lcmp_lt_iff _ (law_eq _ _ Qc_lawful)). exists p. right. exists a', s', b, r'. auto. }
    rewrite EW in E3. apply split_last in E3 as [(-> & -> & ->)|(q & -> & ->)].
    + apply CMP. pose proof (whole_gap a b WA WB HL) as G.
      unfold Qclt, Qcle in *. rewrite this_plus in *. change (this 1%Qc) with 1%Q in *.
      change (this (- (1))%Qc) with (- (1))%Q in *. lra.
    + rewrite <- app_assoc. now apply CMP.
Qed.

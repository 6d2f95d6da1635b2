(** What minimise relies on in difflib: the operations cover both lists, and blocks said to be equal are. *)
From Coq Require Import Lia Permutation Sorted.
From Verif Require Import Py PyFacts M_Difflib.
Local Open Scope nat_scope.

Section T.
  Context {A : Type} (eqb : A -> A -> bool).
  Variables a b : list A.
  Notation eqat := (eqat eqb a b).

  (** the operations from places [i] and [j] on *)
  Fixpoint ops_ok (i j : nat) (os : list op) : Prop :=
    match os with
    | [] => i = length a /\ j = length b
    | o :: os' =>
        o_i1 o = i /\ o_j1 o = j /\ i <= o_i2 o /\ j <= o_j2 o /\
        match o_tag o with
        | Equal => o_i2 o - i = o_j2 o - j /\ forall t, t < o_i2 o - i -> eqat (i + t) (j + t) = true
        | Insert => o_i2 o = i
        | Delete => o_j2 o = j
        | Replace => True
        end /\ ops_ok (o_i2 o) (o_j2 o) os'
    end.
  Definition is_block (x : nat * nat * nat) : Prop := let '(i, j, k) := x in forall t, t < k -> eqat (i + t) (j + t) = true.
  Definition within (alo ahi blo bhi : nat) (x : nat * nat * nat) : Prop :=
    let '(i, j, k) := x in alo <= i /\ blo <= j /\ i + k <= ahi /\ j + k <= bhi.

  Lemma row_ok i x prev alo blo bhi : nth_error a i = Some x -> alo <= i ->
    (forall j k, In (j, k) prev -> 0 < k /\ k <= i - alo /\ k <= j + 1 - blo /\ forall t, t < k -> eqat (i - 1 - t) (j - t) = true) ->
    forall js best, (forall j, In j js -> same eqb b x j = true /\ blo <= j < bhi) ->
    is_block best -> (within alo i blo bhi best \/ within alo (S i) blo bhi best) ->
    let r := row i prev js best in
    is_block (snd r) /\ within alo (S i) blo bhi (snd r) /\
    forall j k, In (j, k) (fst r) -> 0 < k /\ k <= S i - alo /\ k <= j + 1 - blo /\ forall t, t < k -> eqat (S i - 1 - t) (j - t) = true.
  Proof.
    intros Hx Ha Hp. assert (P : forall j, let k := match j with O => 0 | S j' => lookup prev j' end in
      same eqb b x j = true -> blo <= j < bhi -> k + 1 <= S i - alo /\ k + 1 <= j + 1 - blo /\ forall t, t < k + 1 -> eqat (i - t) (j - t) = true).
    { intros j k Sj Bj. assert (E : eqat i j = true) by (unfold M_Difflib.eqat; rewrite Hx; exact Sj).
      assert (K0 : k = 0 -> k + 1 <= S i - alo /\ k + 1 <= j + 1 - blo /\ forall t, t < k + 1 -> eqat (i - t) (j - t) = true).
      { intros ->. repeat split; try lia. intros t T. replace t with 0 by lia. now rewrite !Nat.sub_0_r. }
      destruct j as [|j']; [now apply K0|]. cbn in k. unfold lookup in k. destruct (dget Nat.eqb prev j') as [k'|] eqn:D; [|now apply K0].
      apply (dget_In Nat.eqb Nat.eqb_spec) in D. specialize (Hp _ _ D). destruct Hp as (H1 & H2 & H3 & H4). subst k.
      repeat split; try lia. intros [|t] T; [now rewrite !Nat.sub_0_r|]. specialize (H4 t ltac:(lia)). replace (i - S t) with (i - 1 - t) by lia. replace (S j' - S t) with (j' - t) by lia. exact H4. }
    induction js as [|j js IH]; intros best Hj Hb Hw.
    - cbn. repeat split; try easy. destruct best as [[bi bj] bk], Hw as [Hw|Hw]; unfold within in *; lia.
    - cbn [row]. set (k := match j with O => 0 | S j' => lookup prev j' end + 1).
      destruct (Hj j (or_introl eq_refl)) as [Sj Bj]. destruct (P j Sj Bj) as (K1 & K2 & K3). fold k in K1, K2, K3.
      set (best' := if Nat.ltb (snd best) k then (i + 1 - k, j + 1 - k, k) else best).
      assert (B : is_block best' /\ (within alo i blo bhi best' \/ within alo (S i) blo bhi best')).
      { unfold best'. destruct (Nat.ltb (snd best) k); [|now split]. split.
        - intros t T. specialize (K3 (k - 1 - t) ltac:(lia)). replace (i + 1 - k + t) with (i - (k - 1 - t)) by lia. replace (j + 1 - k + t) with (j - (k - 1 - t)) by lia. exact K3.
        - right. unfold within. lia. }
      destruct B as [B1 B2]. specialize (IH best' (fun j' I => Hj j' (or_intror I)) B1 B2). cbv zeta in IH. destruct IH as (I1 & I2 & I3).
      cbn [fst snd]. split; [exact I1|]. split; [exact I2|]. intros j0 k0 [E|I]; [|now apply I3]. injection E as <- <-.
      split; [lia|]. split; [lia|]. split; [lia|]. intros t T. replace (S i - 1 - t) with (i - t) by lia. now apply K3.
  Qed.
  Lemma places_same x j : In j (places eqb b x) -> same eqb b x j = true.
  Proof. unfold places. destruct (_ && _)%bool; [easy|]. intros I. now apply filter_In in I. Qed.
  Lemma rows_ok alo blo bhi n : forall i prev best, alo <= i -> i + n <= length a ->
    (forall j k, In (j, k) prev -> 0 < k /\ k <= i - alo /\ k <= j + 1 - blo /\ forall t, t < k -> eqat (i - 1 - t) (j - t) = true) ->
    is_block best -> within alo i blo bhi best ->
    let r := rows eqb a b n i blo bhi prev best in is_block r /\ within alo (i + n) blo bhi r.
  Proof.
    induction n as [|n IH]; intros i prev best Ha Hn Hp Hb Hw; cbv zeta; cbn [rows].
    - rewrite Nat.add_0_r. now split.
    - destruct (nth_error a i) as [x|] eqn:E; [|apply nth_error_None in E; lia].
      set (js := filter _ _). assert (J : forall j, In j js -> same eqb b x j = true /\ blo <= j < bhi).
      { intros j I. apply filter_In in I. destruct I as [I1 I2]. apply andb_prop in I2. destruct I2 as [I2 I3]. apply Nat.leb_le in I2. apply Nat.ltb_lt in I3. split; [now apply places_same|lia]. }
      pose proof (row_ok i x prev alo blo bhi E Ha Hp js best J Hb (or_introl Hw)) as R. cbv zeta in R. destruct R as (R1 & R2 & R3).
      replace (i + S n) with (S i + n) by lia. apply IH; try assumption; lia.
  Qed.
  Lemma left_ok alo blo ahi bhi n : forall i j k, is_block (i, j, k) -> within alo ahi blo bhi (i, j, k) ->
    let r := left_ext eqb a b n i j k alo blo in is_block r /\ within alo ahi blo bhi r.
  Proof.
    induction n as [|n IH]; intros i j k Hb Hw; cbv zeta; cbn [left_ext]; [now split|].
    destruct (_ && _)%bool eqn:E; [|now split]. apply andb_prop in E. destruct E as [E E3]. apply andb_prop in E. destruct E as [E1 E2]. apply Nat.ltb_lt in E1, E2.
    unfold within in Hw. apply IH; [|unfold within; lia]. intros [|t] T; [now rewrite !Nat.add_0_r|].
    replace (i - 1 + S t) with (i + t) by lia. replace (j - 1 + S t) with (j + t) by lia. apply Hb. lia.
  Qed.
  Lemma right_ok alo blo ahi bhi n : forall i j k, is_block (i, j, k) -> within alo ahi blo bhi (i, j, k) ->
    let r := right_ext eqb a b n i j k ahi bhi in is_block r /\ within alo ahi blo bhi r.
  Proof.
    induction n as [|n IH]; intros i j k Hb Hw; cbv zeta; cbn [right_ext]; [now split|].
    destruct (_ && _)%bool eqn:E; [|now split]. apply andb_prop in E. destruct E as [E E3]. apply andb_prop in E. destruct E as [E1 E2]. apply Nat.ltb_lt in E1, E2.
    unfold within in Hw. apply IH; [|unfold within; lia]. intros t T. destruct (Nat.eq_dec t k) as [->|]; [exact E3|]. apply Hb. lia.
  Qed.
  Lemma longest_ok alo ahi blo bhi : alo <= ahi -> ahi <= length a -> blo <= bhi -> is_block (longest eqb a b alo ahi blo bhi) /\ within alo ahi blo bhi (longest eqb a b alo ahi blo bhi).
  Proof.
    intros H1 H2 H3. unfold longest.
    pose proof (rows_ok alo blo bhi (ahi - alo) alo [] (alo, blo, 0) (le_n _) ltac:(lia) ltac:(easy) ltac:(intros t T; lia) ltac:(unfold within; lia)) as R. cbv zeta in R.
    destruct (rows eqb a b (ahi - alo) alo blo bhi [] (alo, blo, 0)) as [[i j] k]. replace (alo + (ahi - alo)) with ahi in R by lia. destruct R as [R1 R2].
    pose proof (left_ok alo blo ahi bhi i i j k R1 R2) as L. cbv zeta in L. destruct (left_ext eqb a b i i j k alo blo) as [[i' j'] k']. destruct L as [L1 L2].
    apply (right_ok alo blo ahi bhi ahi i' j' k' L1 L2).
  Qed.

  (** a chain of blocks from [i] and [j] on *)
  Fixpoint chain (i j ahi bhi : nat) (l : list (nat * nat * nat)) : Prop :=
    match l with
    | [] => i <= ahi /\ j <= bhi
    | (bi, bj, k) :: l' => i <= bi /\ j <= bj /\ 0 < k /\ is_block (bi, bj, k) /\ chain (bi + k) (bj + k) ahi bhi l'
    end.
  Lemma chain_app l1 l2 : forall i j mi mj ahi bhi, chain i j mi mj l1 -> chain mi mj ahi bhi l2 -> chain i j ahi bhi (l1 ++ l2).
  Proof.
    induction l1 as [|[[bi bj] k] l1 IH]; intros i j mi mj ahi bhi C1 C2.
    - cbn in C1. cbn [app]. destruct l2 as [|[[bi bj] k] l2]; cbn [chain] in *; [lia|]. destruct C2 as (X1 & X2 & X3). repeat split; try tauto; lia.
    - cbn [app chain] in *. destruct C1 as (X1 & X2 & X3 & X4 & X5). repeat split; try assumption. eapply IH; eassumption.
  Qed.
  Lemma blocks_ok fuel : forall alo ahi blo bhi, alo <= ahi -> ahi <= length a -> blo <= bhi -> chain alo blo ahi bhi (blocks eqb a b fuel alo ahi blo bhi).
  Proof.
    induction fuel as [|f IH]; intros alo ahi blo bhi H1 H2 H3; cbn [blocks]; [cbn; lia|].
    pose proof (longest_ok alo ahi blo bhi H1 H2 H3) as [L1 L2]. destruct (longest eqb a b alo ahi blo bhi) as [[i j] k]. unfold within in L2.
    destruct (Nat.eqb_spec k 0) as [->|K]; [cbn; lia|].
    apply (chain_app _ _ alo blo i j); [destruct (_ && _)%bool; [apply IH; lia|cbn; lia]|]. cbn [app chain]. repeat split; try lia; try exact L1.
    destruct (_ && _)%bool; [apply IH; lia|cbn; lia].
  Qed.
  Lemma collapse_ok l : forall i j i1 j1 k1 ahi bhi, i <= i1 -> j <= j1 -> is_block (i1, j1, k1) -> chain (i1 + k1) (j1 + k1) ahi bhi l -> chain i j ahi bhi (collapse i1 j1 k1 l).
  Proof.
    induction l as [|[[i2 j2] k2] l IH]; intros i j i1 j1 k1 ahi bhi Hi Hj B C; cbn [collapse chain] in *.
    - destruct (Nat.eqb_spec k1 0); cbn [chain]; [lia|]. repeat split; try lia; exact B.
    - destruct C as (C1 & C2 & C3 & C4 & C5). destruct (Nat.eqb_spec (i1 + k1) i2) as [E1|]; cbn [andb].
      + destruct (Nat.eqb_spec (j1 + k1) j2) as [E2|].
        * subst. apply IH; try assumption; [|now rewrite !Nat.add_assoc].
          intros t T. destruct (Nat.lt_ge_cases t k1); [now apply B|]. specialize (C4 (t - k1) ltac:(lia)). replace (i1 + k1 + (t - k1)) with (i1 + t) in C4 by lia. replace (j1 + k1 + (t - k1)) with (j1 + t) in C4 by lia. exact C4.
        * subst. destruct (Nat.eqb_spec k1 0); cbn [app chain]; [apply IH; try assumption; lia|]. repeat split; try lia; try exact B. apply IH; try assumption; lia.
      + destruct (Nat.eqb_spec k1 0); cbn [app chain]; [apply IH; try assumption; lia|]. repeat split; try lia; try exact B. apply IH; try assumption; lia.
  Qed.
  Lemma opcodes_ok l : forall i j, chain i j (length a) (length b) l -> ops_ok i j (opcodes i j (l ++ [(length a, length b, 0)])).
  Proof.
    assert (G : forall i j ai bj r, i <= ai -> j <= bj -> ops_ok ai bj r -> ops_ok i j ((if (Nat.ltb i ai && Nat.ltb j bj)%bool then [Op Replace i ai j bj]
         else if Nat.ltb i ai then [Op Delete i ai j bj] else if Nat.ltb j bj then [Op Insert i ai j bj] else []) ++ r)).
    { intros i j ai bj r H1 H2 R. destruct (Nat.ltb_spec i ai), (Nat.ltb_spec j bj); cbn [andb app ops_ok o_tag o_i1 o_i2 o_j1 o_j2]; repeat split; try lia; try exact R.
      now replace i with ai by lia; replace j with bj by lia. }
    induction l as [|[[bi bj] k] l IH]; intros i j C; cbn [app opcodes].
    - cbn in C. apply G; try lia. cbn. lia.
    - cbn [chain] in C. destruct C as (C1 & C2 & C3 & C4 & C5). apply G; try lia. destruct (Nat.eqb_spec k 0); [lia|]. cbn [app ops_ok o_tag o_i1 o_i2 o_j1 o_j2].
      repeat split; try lia; [|now apply IH]. intros t T. apply C4. lia.
  Qed.
  Theorem get_opcodes_ok : ops_ok 0 0 (get_opcodes eqb a b).
  Proof.
    unfold get_opcodes, matching_blocks. apply opcodes_ok. apply collapse_ok; try lia; [intros t T; lia|]. apply blocks_ok; lia.
  Qed.

  (** places said to be equal: increasing in both lists, and all that is not inserted *)
  Definition eq_pairs (os : list op) : list (nat * nat) :=
    flat_map (fun o => match o_tag o with Equal => map (fun t => (o_i1 o + t, o_j1 o + t)) (seq 0 (o_i2 o - o_i1 o)) | _ => [] end) os.
  Definition in_new (os : list op) (j : nat) : Prop :=
    exists o, In o os /\ (o_tag o = Insert \/ o_tag o = Replace) /\ o_j1 o <= j < o_j2 o.
  Lemma ops_pairs os : forall i j, ops_ok i j os ->
    (forall p q, In (p, q) (eq_pairs os) -> i <= p /\ j <= q /\ eqat p q = true) /\
    (forall p q p' q', In (p, q) (eq_pairs os) -> In (p', q') (eq_pairs os) -> q < q' -> p < p') /\
    (forall q, j <= q < length b -> (exists p, In (p, q) (eq_pairs os)) \/ in_new os q).
  Proof.
    induction os as [|o os IH]; intros i j H.
    - cbn in H. repeat split; try easy. intros q Q. lia.
    - cbn [ops_ok] in H. destruct H as (H1 & H2 & H3 & H4 & H5 & H6). specialize (IH _ _ H6). destruct IH as (I1 & I2 & I3).
      change (eq_pairs (o :: os)) with ((match o_tag o with Equal => map (fun t => (o_i1 o + t, o_j1 o + t)) (seq 0 (o_i2 o - o_i1 o)) | _ => [] end) ++ eq_pairs os).
      assert (F : forall p q, In (p, q) (match o_tag o with Equal => map (fun t => (o_i1 o + t, o_j1 o + t)) (seq 0 (o_i2 o - o_i1 o)) | _ => [] end) ->
         exists t, p = i + t /\ q = j + t /\ p < o_i2 o /\ q < o_j2 o /\ eqat p q = true).
      { intros p q I. destruct (o_tag o); try easy. apply in_map_iff in I. destruct I as (t & E & T). apply in_seq in T. injection E as <- <-. exists t. rewrite H1, H2. destruct H5 as [H5 H7].
        repeat split; try lia. apply H7. lia. }
      split; [|split].
      + intros p q I. apply in_app_or in I. destruct I as [I|I]; [apply F in I; destruct I as (t & ? & ? & ? & ? & ?); repeat split; try lia; assumption|]. apply I1 in I. repeat split; try lia; easy.
      + intros p q p' q' I I' L. apply in_app_or in I, I'. destruct I as [I|I], I' as [I'|I'].
        * apply F in I, I'. destruct I as (t & ? & ? & ?), I' as (t' & ? & ? & ?). lia.
        * apply F in I. apply I1 in I'. destruct I as (t & ? & ? & ? & ?). lia.
        * apply F in I'. apply I1 in I. destruct I' as (t & ? & ? & ? & ?). lia.
        * eapply I2; eassumption.
      + intros q Q. destruct (Nat.lt_ge_cases q (o_j2 o)) as [L|L].
        * destruct (o_tag o) eqn:T.
          -- right. exists o. repeat split; [now left|now right|lia|lia].
          -- lia.
          -- right. exists o. repeat split; [now left|now left|lia|lia].
          -- left. exists (i + (q - j)). apply in_or_app. left. apply in_map_iff. exists (q - j). split; [f_equal; lia|]. apply in_seq. lia.
        * destruct (I3 q ltac:(lia)) as [[p P]|(o' & O1 & O2)]; [left; exists p; apply in_or_app; now right|right; exists o'; split; [now right|exact O2]].
  Qed.
End T.

(** Lists of distinct items compared with themselves: all equal *)
Section Same.
  Context {A : Type} (eqb : A -> A -> bool) (eqb_spec : forall x y, reflect (x = y) (eqb x y)).
  Lemma places_one (l : list A) i x : NoDup l -> nth_error l i = Some x -> places eqb l x = [i].
  Proof.
    intros N E. assert (Sm : forall j, same eqb l x j = Nat.eqb j i).
    { intros j. unfold same. destruct (Nat.eqb_spec j i) as [->|D]; [rewrite E; now destruct (eqb_spec x x)|].
      destruct (nth_error l j) as [y|] eqn:Ej; [|reflexivity]. destruct (eqb_spec x y) as [->|]; [|reflexivity]. exfalso. apply D.
      apply (proj1 (NoDup_nth_error l) N); [apply nth_error_Some; congruence|congruence]. }
    assert (L : i < length l) by (apply nth_error_Some; congruence).
    assert (F : filter (same eqb l x) (seq 0 (length l)) = [i]).
    { rewrite (filter_ext _ _ Sm). replace (length l) with (i + S (length l - i - 1)) by lia. rewrite seq_app, filter_app. cbn [seq filter].
      assert (Z : forall n s, (forall j, s <= j < s + n -> j <> i) -> filter (fun j => Nat.eqb j i) (seq s n) = []).
      { induction n as [|n IH]; intros s H; [reflexivity|]. cbn [seq filter]. destruct (Nat.eqb_spec s i); [exfalso; apply (H s); lia|]. apply IH. intros j J. apply H. lia. }
      rewrite Z by lia. cbn. rewrite Nat.eqb_refl. f_equal. apply Z. lia. }
    unfold places. rewrite F. cbn [length]. destruct (Nat.ltb_spec (length l / 100 + 1) 1); [lia|]. now rewrite andb_false_r.
  Qed.
  Lemma rows_same (l : list A) n : NoDup l -> forall i prev best, i + n = length l -> snd best = i -> (best = (0, 0, i)) ->
    (match i with O => True | S i' => prev = [(i', i)] end) -> rows eqb l l n i 0 (length l) prev best = (0, 0, length l).
  Proof.
    intros N. induction n as [|n IH]; intros i prev best L Sb -> P; cbn [rows]; [now replace i with (length l) by lia|].
    destruct (nth_error l i) as [x|] eqn:E; [|apply nth_error_None in E; lia]. rewrite (places_one l i x N E). cbn [filter].
    replace (Nat.leb 0 i && Nat.ltb i (length l))%bool with true by (symmetry; apply andb_true_intro; split; [apply Nat.leb_le|apply Nat.ltb_lt]; lia).
    cbn [row fst snd]. assert (K : (match i with O => 0 | S j' => lookup prev j' end) = i).
    { destruct i; [reflexivity|]. rewrite P. unfold lookup. cbn [dget]. now rewrite Nat.eqb_refl. }
    rewrite K. replace (Nat.ltb i (i + 1)) with true by (symmetry; apply Nat.ltb_lt; lia). replace (i + 1 - (i + 1)) with 0 by lia.
    apply IH; cbn [snd]; try lia; f_equal; try lia; f_equal; lia.
  Qed.
  Theorem get_opcodes_same (l : list A) : NoDup l -> l <> [] -> get_opcodes eqb l l = [Op Equal 0 (length l) 0 (length l)].
  Proof.
    intros N NE. assert (P : 0 < length l) by (destruct l; [easy|cbn; lia]). unfold get_opcodes, matching_blocks. cbn [blocks].
    unfold longest. rewrite Nat.sub_0_r. rewrite rows_same by (assumption || lia || reflexivity || exact I). cbn [left_ext].
    assert (R : forall n, right_ext eqb l l n 0 0 (length l) (length l) (length l) = (0, 0, length l)).
    { intros [|n]; [reflexivity|]. cbn [right_ext]. cbn [Nat.add]. now rewrite Nat.ltb_irrefl. }
    rewrite R. generalize dependent (length l). intros n P _. destruct n as [|n]; [lia|].
    change (Nat.eqb (S n) 0) with false. cbv iota. change (Nat.ltb 0 0) with false. cbn [andb app Nat.add]. rewrite Nat.ltb_irrefl. cbn [andb collapse Nat.add Nat.eqb app opcodes].
    change (Nat.ltb 0 0) with false. cbn [andb app Nat.eqb Nat.add]. rewrite Nat.ltb_irrefl. reflexivity.
  Qed.
End Same.

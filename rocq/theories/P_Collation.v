(** Proofs about sort keys, itemise, ducetSortKey, the tailoring parser, DUCET lines and
    ducetCompare. *)
From Verif Require Import Py PyFacts M_UnicodeSets P_UnicodeSets M_Collation.

(** * Sort keys *)
Section Keys.
  Context {W : Type} (wcmp : W -> W -> comparison) (zero : W).
  Hypothesis w_eq : forall x y, wcmp x y = Eq <-> x = y.
  Hypothesis w_antisym : forall x y, wcmp y x = CompOpp (wcmp x y).
  Hypothesis w_trans : forall x y z, wcmp x y = Lt -> wcmp y z = Lt -> wcmp x z = Lt.

  Notation sz := (stripzero wcmp zero).
  Notation lc := (lcmp wcmp).

  Lemma weqb_iff x y : weqb wcmp x y = true <-> x = y.
  Proof. unfold weqb. rewrite <- w_eq. destruct (wcmp x y); intuition congruence. Qed.
  Lemma weqb_refl x : weqb wcmp x x = true.
  Proof. now apply weqb_iff. Qed.

  Definition ends_zero (l : list W) : Prop := exists u, l = u ++ [zero].

  Lemma sz_zeros n : sz (repeat zero n) = [].
  Proof. induction n as [|n IH]; cbn [repeat stripzero]; [reflexivity|]. now rewrite IH, weqb_refl. Qed.

  Lemma ends_zero_cons x y l : ends_zero (y :: l) -> ends_zero (x :: y :: l).
  Proof. intros (u & H). exists (x :: u). now rewrite H. Qed.

  Lemma sz_app t n : ~ ends_zero t -> sz (t ++ repeat zero n) = t.
  Proof.
    induction t as [|x t IH]; intros H; cbn [app stripzero].
    - apply sz_zeros.
    - destruct t as [|y t].
      + cbn [app]. rewrite sz_zeros. destruct (weqb wcmp x zero) eqn:E; [|reflexivity].
        apply weqb_iff in E as ->. exfalso. apply H. now exists [].
      + rewrite IH; [reflexivity|]. intros X. apply H. now apply ends_zero_cons.
  Qed.

  Lemma sz_spec l : ~ ends_zero (sz l) /\ exists n, l = sz l ++ repeat zero n.
  Proof.
    induction l as [|x l [IH1 (n & IH2)]]; cbn [stripzero].
    - split; [intros (u & H); now destruct u|]. now exists O.
    - destruct (sz l) as [|y s] eqn:E.
      + destruct (weqb wcmp x zero) eqn:Ez.
        * apply weqb_iff in Ez as ->. split; [intros (u & H); now destruct u|].
          exists (S n). cbn. now rewrite IH2.
        * split.
          -- intros (u & H). destruct u as [|a u]; [|destruct u; discriminate].
             injection H as ->. rewrite weqb_refl in Ez. discriminate.
          -- exists n. now rewrite IH2 at 1.
      + split.
        * intros (u & H). destruct u as [|a u]; [discriminate|]. injection H as _ H.
          apply IH1. now exists u.
        * exists n. cbn. now rewrite IH2 at 1.
  Qed.

  Definition K3 (a b c : list W) : list (list W) := [a; b; c].
  Lemma len3 {A} (l : list A) : length l = 3%nat -> exists a b c, l = [a; b; c].
  Proof. destruct l as [|a [|b [|c [|d l]]]]; try discriminate. eauto. Qed.

  Definition kcmp (a b : list (list W)) : comparison := lcmp lc (map sz a) (map sz b).

  Lemma kcmp_antisym a b : kcmp b a = CompOpp (kcmp a b).
  Proof. apply lcmp_antisym. intros; apply lcmp_antisym. apply w_antisym. Qed.
  Lemma kcmp_trans a b c : kcmp a b = Lt -> kcmp b c = Lt -> kcmp a c = Lt.
  Proof.
    apply lcmp_trans.
    - intros. apply lcmp_eq, w_eq.
    - intros x y z. apply lcmp_trans; [apply w_eq|exact w_trans].
  Qed.
  Lemma kcmp_eq a b : kcmp a b = Eq <-> map sz a = map sz b.
  Proof. apply lcmp_eq. intros. apply lcmp_eq, w_eq. Qed.

  Lemma lc_flip x y : lc y x = CompOpp (lc x y).
  Proof. apply lcmp_antisym, w_antisym. Qed.

  (** the result of diffLevel for three level keys *)
  Lemma diff_val (a b : list (list W)) : length a = 3%nat -> length b = 3%nat ->
    exists z, diffLevel wcmp zero (Some a) (Some b) = Ok z /\
      diffLevel wcmp zero (Some b) (Some a) = Ok (if Z.eqb z 4 then 4 else - z)%Z /\
      match kcmp a b with Lt => (1 <= z <= 3)%Z | Gt => (-3 <= z <= -1)%Z | Eq => z = 4%Z end.
  Proof using w_antisym. clear w_eq w_trans.
    intros Ha Hb. apply len3 in Ha as (a0 & a1 & a2 & ->). apply len3 in Hb as (b0 & b1 & b2 & ->).
    unfold diffLevel, kcmp. cbn [map lcmp]. cbn [diff_from level nth_error bind].
    rewrite (lc_flip (sz a0)), (lc_flip (sz a1)), (lc_flip (sz a2)).
    destruct (lc (sz a0) (sz b0)); cbn [CompOpp]; [|eexists; repeat split; cbn; lia..].
    destruct (lc (sz a1) (sz b1)); cbn [CompOpp]; [|eexists; repeat split; cbn; lia..].
    destruct (lc (sz a2) (sz b2)); cbn [CompOpp]; eexists; repeat split; cbn; lia.
  Qed.

  Lemma sk_lt_kcmp (a b : list (list W)) : length a = 3%nat -> length b = 3%nat ->
    sk_lt wcmp zero a (Some b) = Ok (match kcmp a b with Lt => true | _ => false end).
  Proof using w_antisym. clear w_eq w_trans.
    intros Ha Hb. unfold sk_lt, sk_cmp.
    destruct (diff_val b a Hb Ha) as (z & E & _ & H). rewrite E. cbn [bind].
    rewrite kcmp_antisym in H. destruct (kcmp a b); cbn [CompOpp] in H; f_equal; lia.
  Qed.

  Lemma sk_leb_kcmp (a b : list (list W)) : length a = 3%nat -> length b = 3%nat ->
    sk_leb wcmp zero a b = match kcmp a b with Gt => false | _ => true end.
  Proof using w_antisym. clear w_eq w_trans.
    intros Ha Hb. unfold sk_leb. rewrite sk_lt_kcmp by assumption.
    rewrite (kcmp_antisym a b). destruct (kcmp a b); reflexivity.
  Qed.

  Lemma cmpKey_from_iff n : forall i a b, (i + n <= length a)%nat -> (i + n <= length b)%nat ->
    exists r, cmpKey_from wcmp zero n i a b = Ok r /\
      (r = true <-> forall j, (i <= j < i + n)%nat -> sz (nth j a []) = sz (nth j b [])).
  Proof using w_eq. clear w_antisym w_trans.
    induction n as [|n IH]; intros i a b Ha Hb; cbn [cmpKey_from].
    - exists true. split; [reflexivity|]. split; [intros _ j; lia|auto].
    - unfold level. rewrite (nth_error_nth' a []) by lia. rewrite (nth_error_nth' b []) by lia. cbn [bind].
      unfold weq_list. destruct (lc (sz (nth i a [])) (sz (nth i b []))) eqn:E.
      + destruct (IH (S i) a b) as (r & E1 & H1); [lia|lia|]. exists r. split; [exact E1|].
        apply lcmp_eq in E; [|exact w_eq]. rewrite H1. split; intros H j Hj.
        * destruct (Nat.eq_dec j i) as [->|]; [exact E|apply H; lia].
        * apply H. lia.
      + exists false. split; [reflexivity|]. split; [discriminate|]. intros H.
        assert (X : sz (nth i a []) = sz (nth i b [])) by (apply H; lia).
        apply (lcmp_eq wcmp w_eq) in X. congruence.
      + exists false. split; [reflexivity|]. split; [discriminate|]. intros H.
        assert (X : sz (nth i a []) = sz (nth i b [])) by (apply H; lia).
        apply (lcmp_eq wcmp w_eq) in X. congruence.
  Qed.
End Keys.

(** isort through a map *)
Lemma insert_map {A B} (f : A -> B) leb x l :
  insert leb (f x) (map f l) = map f (insert (fun a b => leb (f a) (f b)) x l).
Proof.
  induction l as [|y l IH]; cbn; [reflexivity|]. destruct (leb (f x) (f y)); cbn; congruence.
Qed.
Lemma isort_map {A B} (f : A -> B) leb l :
  isort leb (map f l) = map f (isort (fun a b => leb (f a) (f b)) l).
Proof. induction l as [|x l IH]; cbn; [reflexivity|]. now rewrite IH, insert_map. Qed.

(** lexicographic order as first difference *)
Lemma app_inj_len {A} (p q p' q' : list A) : length p = length p' -> p ++ q = p' ++ q' -> p = p' /\ q = q'.
Proof.
  revert p'; induction p as [|x p IH]; intros [|y p'] HL H; try discriminate; [auto|].
  cbn in *. injection H as -> H. injection HL as HL. destruct (IH p' HL H) as [-> ->]. auto.
Qed.
Lemma lcmp_lt_iff {W} (wcmp : W -> W -> comparison)
  (w_eq : forall x y, wcmp x y = Eq <-> x = y) x y :
  lcmp wcmp x y = Lt <->
  exists p, (exists c r, x = p /\ y = p ++ c :: r) \/
            (exists c r d r', x = p ++ c :: r /\ y = p ++ d :: r' /\ wcmp c d = Lt).
Proof.
  split.
  - revert y. induction x as [|a x IH]; intros [|b y]; cbn; try discriminate.
    + intros _. exists []. left. now exists b, y.
    + destruct (wcmp a b) eqn:E; try discriminate.
      * apply w_eq in E as ->. intros H. apply IH in H as (p & [(c & r & -> & ->)|(c & r & d & r' & -> & -> & H)]).
        -- exists (b :: p). left. now exists c, r.
        -- exists (b :: p). right. now exists c, r, d, r'.
      * intros _. exists []. right. now exists a, x, b, y.
  - intros (p & [(c & r & -> & ->)|(c & r & d & r' & -> & -> & H)]); induction p as [|a p IH]; cbn; auto;
      try (now rewrite H); replace (wcmp a a) with Eq by (symmetry; now apply w_eq); exact IH.
Qed.

(** * itemise *)
Section Item.
  Variable known : pystr -> bool.
  Definition grown (from : nat) (x : pystr) : Prop :=
    forall n, (from < n <= length x)%nat -> known (firstn n x) = true.

  Lemma grown_snoc from x c : grown from x -> known (x ++ [c]) = true -> grown from (x ++ [c]).
  Proof.
    intros H K n Hn. rewrite app_length in Hn. cbn in Hn.
    destruct (Nat.eq_dec n (S (length x))) as [->|Hne].
    - rewrite firstn_all2 by (rewrite app_length; cbn; lia). exact K.
    - rewrite firstn_app. replace (n - length x)%nat with O by lia. cbn. rewrite app_nil_r. apply H. lia.
  Qed.

  Lemma itemise_from_spec : forall s from curr, grown from curr ->
    exists x rest, itemise_from known curr s = x :: rest /\
      (exists w, x = curr ++ w) /\ x ++ concat rest = curr ++ s /\
      grown from x /\ Forall (fun y => y <> [] /\ grown 1 y) rest /\
      (forall a y z b, x :: rest = a ++ y :: z :: b -> known (y ++ firstn 1 z) = false).
  Proof.
    induction s as [|c s IH]; intros from curr Hg; cbn [itemise_from].
    - exists curr, []. repeat split; auto.
      + exists []. now rewrite app_nil_r.
      + intros a y z b H. destruct a as [|? [|? a]]; discriminate.
    - destruct (known (curr ++ [c])) eqn:K.
      + destruct (IH from (curr ++ [c])) as (x & rest & E & (w & ->) & Hc & Hx & Hr & Hm);
          [now apply grown_snoc|].
        exists ((curr ++ [c]) ++ w), rest. rewrite E. repeat split; auto.
        * exists (c :: w). now rewrite <- app_assoc.
        * now rewrite Hc, <- app_assoc.
      + assert (G1 : grown 1 [c]) by (intros n Hn; cbn in Hn; lia).
        destruct (IH 1%nat [c] G1) as (x & rest & E & (w & ->) & Hc & Hx & Hr & Hm).
        exists curr, (([c] ++ w) :: rest). rewrite E. repeat split; auto.
        * exists []. now rewrite app_nil_r.
        * cbn [concat]. now rewrite Hc.
        * constructor; [split; [discriminate|exact Hx]|exact Hr].
        * intros a y z b H. destruct a as [|a0 a].
          -- cbn in H. injection H as <- <- <-. exact K.
          -- cbn [app] in H. injection H as _ H. exact (Hm a y z b H).
  Qed.
End Item.

(** * ducetSortKey *)
Section Seg.
  Context {W : Type}.
  Variable look : pystr -> option (key3 (W := W)).

  Inductive Seg : pystr -> list key3 -> pystr -> Prop :=
  | Seg_stop k : (forall p q, k = p ++ q -> p <> [] -> look p = None) -> Seg k [] k
  | Seg_step p q key ks rest :
      p <> [] -> look p = Some key ->
      (forall p' q', p ++ q = p' ++ q' -> (length p < length p')%nat -> look p' = None) ->
      Seg q ks rest -> Seg (p ++ q) (key :: ks) rest.

  Lemma prefix_firstn (p q : pystr) : p = firstn (length p) (p ++ q).
  Proof. now rewrite firstn_app, Nat.sub_diag, firstn_all, firstn_O, app_nil_r. Qed.

  Lemma longest_spec k i : (i <= length k)%nat ->
    match longest look k i with
    | Some (j, key) => (0 < j <= i)%nat /\ look (firstn j k) = Some key /\
                       forall m, (j < m <= i)%nat -> look (firstn m k) = None
    | None => forall m, (0 < m <= i)%nat -> look (firstn m k) = None
    end.
  Proof.
    induction i as [|i IH]; intros Hi; [cbn; lia|]. cbn [longest].
    destruct (look (firstn (S i) k)) as [key|] eqn:E.
    - repeat split; [lia|lia|exact E|intros m Hm; lia].
    - assert (Hi' : (i <= length k)%nat) by lia. specialize (IH Hi').
      destruct (longest look k i) as [[j key]|].
      + destruct IH as (A & B & C). repeat split; [lia|lia|exact B|].
        intros m Hm. destruct (Nat.eq_dec m (S i)) as [->|]; [exact E|apply C; lia].
      + intros m Hm. destruct (Nat.eq_dec m (S i)) as [->|]; [exact E|apply IH; lia].
  Qed.

  Definition l1 (k : key3 (W := W)) := fst (fst k).
  Definition l2 (k : key3 (W := W)) := snd (fst k).
  Definition l3 (k : key3 (W := W)) := snd k.

  Lemma sortkey_loop_spec : forall fuel k acc, (length k <= fuel)%nat ->
    exists ks rest, Seg k ks rest /\
      sortkey_loop look fuel k acc =
        Ok (l1 acc ++ flat_map l1 ks, l2 acc ++ flat_map l2 ks, l3 acc ++ flat_map l3 ks).
  Proof.
    assert (Stop : forall k acc fuel, (forall m, (0 < m <= length k)%nat -> look (firstn m k) = None) ->
       longest look k (length k) = None ->
      exists ks rest, Seg k ks rest /\
      sortkey_loop look fuel k acc =
        Ok (l1 acc ++ flat_map l1 ks, l2 acc ++ flat_map l2 ks, l3 acc ++ flat_map l3 ks)).
    { intros k acc fuel H HL. exists [], k. split.
      - constructor. intros p q -> Hp. rewrite (prefix_firstn p q). apply H. rewrite app_length.
        destruct p; [congruence|cbn; lia].
      - cbn [flat_map]. rewrite !app_nil_r. destruct acc as [[a b] c].
        destruct fuel, k; cbn [sortkey_loop]; rewrite ?HL; reflexivity. }
    induction fuel as [|fuel IH]; intros k acc Hk.
    - destruct k; [|cbn in Hk; lia]. apply Stop; [cbn; lia|reflexivity].
    - pose proof (longest_spec k (length k) (le_n _)) as HL.
      destruct (longest look k (length k)) as [[j [[a b] c]]|] eqn:E; [|now apply Stop].
      destruct HL as (Hj & Hl & Hm).
      destruct k as [|x k]; [cbn in Hj; lia|].
      cbn [sortkey_loop]. rewrite E.
      destruct (IH (skipn j (x :: k)) (fst (fst acc) ++ a, snd (fst acc) ++ b, snd acc ++ c))
        as (ks & rest & HS & HE); [rewrite skipn_length; cbn [length] in *; lia|].
      exists ((a, b, c) :: ks), rest. split.
      + rewrite <- (firstn_skipn j (x :: k)). constructor; [|exact Hl| |exact HS].
        * intros X. apply (f_equal (@length N)) in X. rewrite firstn_length in X. cbn [length] in *. lia.
        * intros p' q' Heq Hlen. rewrite firstn_skipn in Heq. rewrite firstn_length in Hlen.
          rewrite (prefix_firstn p' q'), <- Heq. apply Hm.
          apply (f_equal (@length N)) in Heq. rewrite app_length in Heq. lia.
      + rewrite HE. unfold l1, l2, l3. cbn [fst snd flat_map]. now rewrite !app_assoc.
  Qed.

  Lemma Seg_unique k ks r : Seg k ks r -> forall ks' r', Seg k ks' r' -> ks = ks' /\ r = r'.
  Proof.
    induction 1 as [k H|p q key ks r Hp Hl Hm HS IH]; intros ks' r' H'.
    - inversion H' as [|p q key ks0 r0 Hp Hl Hm HS]; subst; [auto|].
      rewrite (H p q eq_refl Hp) in Hl. discriminate.
    - inversion H' as [k Hs|p2 q2 key2 ks2 r2 Hp2 Hl2 Hm2 HS2 Heq]; subst.
      + rewrite (Hs p q eq_refl Hp) in Hl. discriminate.
      + assert (Len : length p2 = length p).
        { destruct (Nat.lt_trichotomy (length p2) (length p)) as [L|[L|L]]; [|exact L|].
          - rewrite (Hm2 p q Heq L) in Hl. discriminate.
          - rewrite (Hm p2 q2 (eq_sym Heq) L) in Hl2. discriminate. }
        assert (p2 = p /\ q2 = q) as [-> ->].
        { now apply app_inj_len. }
        rewrite Hl in Hl2. injection Hl2 as ->. destruct (IH ks2 r' HS2) as [-> ->]. auto.
  Qed.
End Seg.

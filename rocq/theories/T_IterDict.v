(** C46: the assignments a template repetition runs over. *)
From Coq Require Import String.
From Verif Require Import Py PyFacts M_IterDict.
Local Open Scope list_scope.
Local Open Scope nat_scope.

(** * Specification *)

(** the dictionary after giving variables values, in order *)
Definition given (kvs : list (pystr * value)) : iterdict :=
  fold_left (fun d kv => setitem d (fst kv) (snd kv)) kvs new_iterdict.
(** the value given last to a variable *)
Definition last_given (kvs : list (pystr * value)) (k : pystr) : option value := dget streq (rev kvs) k.
(** the values a variable runs through, when lists are taken apart *)
Definition choices (v : value) : list pystr := if v_isstr v then [v_str v] else v_items v.
Definition sum (l : list nat) : nat := fold_right Nat.add 0 l.
Definition product (l : list nat) : nat := fold_right Nat.mul 1 l.

(** * Proofs *)
Record valid (d : iterdict) : Prop := {
  va_index : Forall2 (fun l j => j < List.length l) (id_values d) (id_indices d);
  va_keys : forall k i, In (k, i) (id_keys d) -> i < List.length (id_values d);
  va_nodup : NoDup (map fst (id_keys d)) }.

Lemma Forall2_len {A B} (R : A -> B -> Prop) l m : Forall2 R l m -> List.length l = List.length m.
Proof. intros H; induction H; cbn; congruence. Qed.

Lemma item_at_ok vs js i : Forall2 (fun l j => j < List.length l) vs js -> i < List.length vs ->
  exists s, item_at vs js i = Ok s.
Proof.
  intros H Hi. unfold item_at. revert i Hi; induction H as [|l j vs js Hj H IH]; intros i Hi; cbn in Hi; [lia|].
  destruct i as [|i]; cbn [nth_error]; [|apply IH; lia].
  destruct (nth_error l j) eqn:E; [eauto|]. apply nth_error_None in E. lia.
Qed.

Lemma asdict_spec d : valid d -> exists r, asdict d = Ok r /\ NoDup (map fst r) /\
  forall k, match dget streq (id_keys d) k with
            | Some i => exists s, item_at (id_values d) (id_indices d) i = Ok s /\ dget streq r k = Some s
            | None => dget streq r k = None
            end.
Proof.
  intros [V K ND]. unfold asdict. remember (id_keys d) as ks eqn:Ek. clear Ek.
  assert (G : forall ks acc, (forall k i, In (k, i) ks -> i < List.length (id_values d)) -> NoDup (map fst ks) ->
     NoDup (map fst acc) ->
     exists r, fold_left (fun r (kv : pystr * nat) =>
       do res <- r; do s <- item_at (id_values d) (id_indices d) (snd kv); Ok (dset streq res (fst kv) s)) ks (Ok acc) = Ok r /\
     NoDup (map fst r) /\
     forall k, match dget streq ks k with
            | Some i => exists s, item_at (id_values d) (id_indices d) i = Ok s /\ dget streq r k = Some s
            | None => dget streq r k = dget streq acc k
            end).
  { clear ks K ND. induction ks as [|[k0 i0] ks IH]; intros acc K ND NA; cbn [fold_left].
    - exists acc. cbn [dget]. auto.
    - cbn [bind fst snd]. destruct (item_at_ok _ _ i0 V (K k0 i0 (or_introl eq_refl))) as (s & Es). rewrite Es. cbn [bind].
      inversion ND as [|x y Hni Hnd]; subst.
      destruct (IH (dset streq acc k0 s)) as (r & Er & Nr & Hr).
      + intros k i H. apply (K k i). right. assumption.
      + assumption.
      + apply dset_NoDup; [exact streq_spec|assumption].
      + exists r. split; [exact Er|]. split; [assumption|]. intros k. cbn [dget].
        destruct (streq_spec k k0) as [->|Nk].
        * exists s. split; [assumption|]. specialize (Hr k0).
          destruct (dget streq ks k0) as [i|] eqn:E.
          -- exfalso. apply Hni. apply (dget_In _ streq_spec) in E.
             apply in_map_iff. exists (k0, i). auto.
          -- rewrite Hr. apply (dget_dset_same _ streq_spec).
        * specialize (Hr k). destruct (dget streq ks k) as [i|]; [assumption|].
          rewrite Hr. apply (dget_dset_other _ streq_spec). assumption. }
  destruct (G ks [] K ND) as (r & Er & Nr & Hr); [constructor|]. exists r. auto.
Qed.

Lemma advance_valid vs js js' : Forall2 (fun l j => j < List.length l) vs js -> advance vs js = Some js' ->
  Forall2 (fun l j => j < List.length l) vs js'.
Proof.
  intros H; revert js'; induction H as [|l j vs js Hj H IH]; intros js'; cbn [advance]; [discriminate|].
  destruct (Nat.ltb_spec (j + 1) (List.length l)).
  - intros [= <-]. constructor; assumption.
  - destruct (advance vs js); [|discriminate]. intros [= <-]. constructor; auto.
Qed.

(** what is left to come *)
Definition left_ (vs : list (list pystr)) (js : list nat) : nat :=
  sum (map (fun p => List.length (fst p) - 1 - snd p) (combine vs js)).
Lemma advance_left vs js : Forall2 (fun l j => j < List.length l) vs js ->
  match advance vs js with Some js' => left_ vs js = S (left_ vs js') | None => left_ vs js = 0 end.
Proof.
  unfold left_, sum. intros H; induction H as [|l j vs js Hj H IH]; cbn [advance combine map fold_right fst snd]; [reflexivity|].
  destruct (Nat.ltb_spec (j + 1) (List.length l)).
  - cbn [combine map fold_right fst snd]. lia.
  - destruct (advance vs js) as [js'|]; cbn [combine map fold_right fst snd]; lia.
Qed.

Lemma iterate_rest fuel d : valid d -> id_atstart d = false -> left_ (id_values d) (id_indices d) < fuel ->
  exists rs, iterate fuel d = Ok rs /\ List.length rs = left_ (id_values d) (id_indices d).
Proof.
  revert d; induction fuel as [|fuel IH]; intros d V S0 Hl; [lia|].
  cbn [iterate]. unfold next_. rewrite S0. pose proof (advance_left _ _ (va_index d V)) as HA.
  destruct (advance (id_values d) (id_indices d)) as [js|] eqn:EA.
  - set (d' := mkID (id_keys d) (id_values d) js false).
    assert (V' : valid d').
    { destruct V as [V1 V2 V3]. constructor; cbn [d' id_values id_indices id_keys]; auto. eapply advance_valid; eassumption. }
    destruct (asdict_spec d' V') as (r & -> & _). cbn [bind].
    destruct (IH d' V' eq_refl) as (rs & -> & L); [cbn [d' id_values id_indices]; lia|].
    exists (r :: rs). split; [reflexivity|]. cbn [List.length]. rewrite L. cbn [d' id_values id_indices]. lia.
  - exists []. split; [reflexivity|]. cbn. lia.
Qed.

Lemma iterate_start fuel d : valid d -> id_atstart d = true -> S (left_ (id_values d) (id_indices d)) < fuel ->
  exists r rs, iterate fuel d = Ok (r :: rs) /\ asdict d = Ok r /\ List.length rs = left_ (id_values d) (id_indices d).
Proof.
  intros V S0 Hl. destruct fuel as [|fuel]; [lia|]. cbn [iterate]. unfold next_. rewrite S0.
  set (d' := mkID (id_keys d) (id_values d) (id_indices d) false).
  assert (V' : valid d') by (destruct V as [V1 V2 V3]; constructor; assumption).
  assert (E : asdict d' = asdict d) by reflexivity. rewrite E.
  destruct (asdict_spec d V) as (r & Er & _). rewrite Er. cbn [bind].
  destruct (iterate_rest fuel d' V' eq_refl) as (rs & -> & L); [cbn [d' id_values id_indices]; lia|].
  exists r, rs. auto.
Qed.

(** the state reached by giving values *)
Definition held (v : value) : list pystr := if (v_isstr v || negb (v_haslen v))%bool then [v_str v] else v_items v.
Lemma given_snoc kvs k v : given (kvs ++ [(k, v)]) = setitem (given kvs) k v.
Proof. unfold given. rewrite fold_left_app. reflexivity. Qed.
Lemma given_values kvs : id_values (given kvs) = map (fun kv => held (snd kv)) kvs.
Proof.
  induction kvs as [|[k v] kvs IH] using rev_ind; [reflexivity|].
  rewrite given_snoc, map_app. cbn [setitem id_values map snd]. rewrite IH. reflexivity.
Qed.
Lemma given_indices kvs : id_indices (given kvs) = map (fun _ => 0) kvs.
Proof.
  induction kvs as [|[k v] kvs IH] using rev_ind; [reflexivity|].
  rewrite given_snoc, map_app. cbn [setitem id_indices map]. rewrite IH. reflexivity.
Qed.
Lemma given_start kvs : id_atstart (given kvs) = true.
Proof. induction kvs as [|[k v] kvs IH] using rev_ind; [reflexivity|]. rewrite given_snoc. exact IH. Qed.
Lemma given_keys kvs :
  NoDup (map fst (id_keys (given kvs))) /\
  (forall k, match dget streq (id_keys (given kvs)) k with
             | Some i => exists v, nth_error kvs i = Some (k, v) /\ last_given kvs k = Some v
             | None => last_given kvs k = None
             end).
Proof.
  induction kvs as [|[k v] kvs [ND IH]] using rev_ind.
  - split; [constructor|]. intros k. reflexivity.
  - rewrite given_snoc. cbn [setitem id_keys]. split; [apply dset_NoDup; [exact streq_spec|assumption]|].
    intros k'. unfold last_given. rewrite rev_app_distr. cbn [rev app dget].
    destruct (streq_spec k' k) as [->|Nk].
    + rewrite (dget_dset_same _ streq_spec). exists v. split; [|reflexivity].
      rewrite given_values, map_length, nth_error_app2 by lia. rewrite Nat.sub_diag. reflexivity.
    + rewrite (dget_dset_other _ streq_spec) by assumption. specialize (IH k').
      destruct (dget streq (id_keys (given kvs)) k') as [i|]; [|assumption].
      destruct IH as (v' & E & L). exists v'. split; [|assumption].
      rewrite nth_error_app1; [assumption|]. apply nth_error_Some. congruence.
Qed.
Lemma given_valid kvs : Forall (fun kv => held (snd kv) <> []) kvs -> valid (given kvs).
Proof.
  intros H. constructor.
  - rewrite given_values, given_indices. induction H as [|[k v] kvs Hv H IH]; cbn [map]; constructor; [|assumption].
    cbn [snd] in *. destruct (held v); [congruence|]. cbn. lia.
  - intros k i Hi. destruct (given_keys kvs) as [ND G]. specialize (G k).
    assert (E : dget streq (id_keys (given kvs)) k = Some i) by (apply (dget_NoDup_In _ streq_spec); assumption).
    rewrite E in G. destruct G as (v & E2 & _). rewrite given_values, map_length. apply nth_error_Some. congruence.
  - apply given_keys.
Qed.

(** ** C46: values without an attribute "len" (every value Python or an XPath gives): the
    repetition runs exactly once, with each variable set to the [str()] of its last value,
    however many items that value has. *)
Theorem C46_once kvs fuel :
  Forall (fun kv => v_haslen (snd kv) = false) kvs -> 2 <= fuel ->
  exists r, iterate fuel (given kvs) = Ok [r] /\ NoDup (map fst r) /\
    forall k, dget streq r k = option_map v_str (last_given kvs k).
Proof.
  intros H Hf.
  assert (Hh : forall kv, In kv kvs -> held (snd kv) = [v_str (snd kv)]).
  { rewrite Forall_forall in H. intros kv Hi. unfold held. rewrite (H kv Hi), orb_true_r. reflexivity. }
  assert (V : valid (given kvs)).
  { apply given_valid. rewrite Forall_forall. intros kv Hi. rewrite (Hh kv Hi). discriminate. }
  assert (L : left_ (id_values (given kvs)) (id_indices (given kvs)) = 0).
  { rewrite given_values, given_indices. clear -Hh. unfold left_, sum. induction kvs as [|kv kvs IH]; [reflexivity|].
    cbn [map combine fold_right fst snd]. rewrite (Hh kv (or_introl eq_refl)). cbn [List.length].
    rewrite IH; [reflexivity|]. intros kv' Hi. apply Hh. right. assumption. }
  destruct (iterate_start fuel _ V (given_start kvs)) as (r & rs & -> & Ea & Lr); [lia|].
  destruct rs; [|cbn in Lr; lia]. exists r. split; [reflexivity|].
  destruct (asdict_spec _ V) as (r' & Er & Nr & Hr). rewrite Ea in Er. injection Er as <-.
  split; [assumption|]. intros k. specialize (Hr k). destruct (given_keys kvs) as [_ G]. specialize (G k).
  destruct (dget streq (id_keys (given kvs)) k) as [i|].
  - destruct Hr as (s & Es & ->). destruct G as (v & En & ->). cbn [option_map]. f_equal.
    unfold item_at in Es. rewrite given_values, given_indices, !nth_error_map, En in Es. cbn [option_map snd] in Es.
    pose proof (Hh (k, v) (nth_error_In _ _ En)) as Hv. cbn [snd] in Hv. rewrite Hv in Es. cbn in Es. congruence.
  - rewrite Hr, G. reflexivity.
Qed.

Lemma left_zero kvs : (forall kv, In kv kvs -> held (snd kv) = choices (snd kv)) ->
  left_ (id_values (given kvs)) (id_indices (given kvs)) = sum (map (fun kv => List.length (choices (snd kv)) - 1) kvs).
Proof.
  intros H. rewrite given_values, given_indices. unfold left_, sum.
  induction kvs as [|kv kvs IH]; [reflexivity|].
  cbn [map combine fold_right fst snd]. rewrite (H kv (or_introl eq_refl)).
  rewrite IH by (intros kv' Hi; apply H; right; assumption). lia.
Qed.

(** ** C46: for values that do have the attribute, the assignments are as many as the steps
    of a staircase: one more than the sum of the numbers of further items *)
Theorem C46_lists kvs fuel :
  Forall (fun kv => v_haslen (snd kv) = true /\ choices (snd kv) <> []) kvs ->
  S (sum (map (fun kv => List.length (choices (snd kv)) - 1) kvs)) < fuel ->
  exists rs, iterate fuel (given kvs) = Ok rs /\
    List.length rs = S (sum (map (fun kv => List.length (choices (snd kv)) - 1) kvs)).
Proof.
  intros H Hf. rewrite Forall_forall in H.
  assert (Hh : forall kv, In kv kvs -> held (snd kv) = choices (snd kv)).
  { intros kv Hi. destruct (H kv Hi) as [E _]. unfold held, choices. rewrite E, orb_false_r. reflexivity. }
  assert (V : valid (given kvs)).
  { apply given_valid. rewrite Forall_forall. intros kv Hi. rewrite (Hh kv Hi). apply (H kv Hi). }
  rewrite <- (left_zero kvs Hh) in Hf |- *.
  destruct (iterate_start fuel _ V (given_start kvs)) as (r & rs & -> & _ & Lr); [lia|].
  exists (r :: rs). split; [reflexivity|]. cbn [List.length]. lia.
Qed.

(** which is less than the number of combinations as soon as two values have two items *)
Theorem C46_not_product (kvs1 : list (pystr * value)) kv1 kvs2 kv2 kvs3 :
  let kvs := kvs1 ++ kv1 :: kvs2 ++ kv2 :: kvs3 in
  Forall (fun kv => choices (snd kv) <> []) kvs ->
  2 <= List.length (choices (snd kv1)) -> 2 <= List.length (choices (snd kv2)) ->
  S (sum (map (fun kv => List.length (choices (snd kv)) - 1) kvs)) <
  product (map (fun kv => List.length (choices (snd kv))) kvs).
Proof.
  intros kvs H H1 H2. subst kvs.
  set (len := fun kv : pystr * value => List.length (choices (snd kv))).
  change (S (sum (map (fun kv => len kv - 1) (kvs1 ++ kv1 :: kvs2 ++ kv2 :: kvs3))) <
          product (map len (kvs1 ++ kv1 :: kvs2 ++ kv2 :: kvs3))).
  assert (P : forall l : list (pystr * value), Forall (fun kv => 1 <= len kv) l ->
     S (sum (map (fun kv => len kv - 1) l)) <= product (map len l)).
  { intros l Hl. induction Hl as [|x l Hx Hl IH]; cbn [map]; unfold sum, product in *; cbn [fold_right]; [lia|]. nia. }
  assert (Q : forall a b : list (pystr * value), sum (map (fun kv => len kv - 1) (a ++ b)) =
     sum (map (fun kv => len kv - 1) a) + sum (map (fun kv => len kv - 1) b)).
  { intros a b. induction a as [|x a IH]; cbn [map app]; unfold sum in *; cbn [fold_right]; [reflexivity|]. lia. }
  assert (R : forall a b : list (pystr * value), product (map len (a ++ b)) = product (map len a) * product (map len b)).
  { intros a b. induction a as [|x a IH]; cbn [map app]; unfold product in *; cbn [fold_right]; [lia|]. rewrite IH. lia. }
  assert (A : Forall (fun kv => 1 <= len kv) (kvs1 ++ kv1 :: kvs2 ++ kv2 :: kvs3)).
  { rewrite Forall_forall in H |- *. intros kv Hi. specialize (H kv Hi). unfold len. destruct (choices (snd kv)); [congruence|cbn; lia]. }
  apply Forall_app in A. destruct A as [A1 A]. inversion A as [|? ? _ A']; subst. apply Forall_app in A'.
  destruct A' as [A2 A3]. inversion A3 as [|? ? _ A4]; subst.
  apply P in A1, A2, A4. rewrite Q, R. cbn [map]. unfold sum at 2, product at 2. cbn [fold_right].
  fold (sum (map (fun kv => len kv - 1) (kvs2 ++ kv2 :: kvs3))). fold (product (map len (kvs2 ++ kv2 :: kvs3))).
  rewrite Q, R. cbn [map]. unfold sum at 3, product at 3. cbn [fold_right].
  fold (sum (map (fun kv => len kv - 1) kvs3)). fold (product (map len kvs3)).
  fold (len kv1) in H1. fold (len kv2) in H2.
  generalize dependent (sum (map (fun kv => len kv - 1) kvs1)). generalize dependent (product (map len kvs1)).
  generalize dependent (sum (map (fun kv => len kv - 1) kvs2)). generalize dependent (product (map len kvs2)).
  generalize dependent (sum (map (fun kv => len kv - 1) kvs3)). generalize dependent (product (map len kvs3)).
  generalize dependent (len kv1). generalize dependent (len kv2). clear.
  intros n Hn m Hm p3 s3 H3 p2 s2 H2 p1 s1 H1.
  assert (B : m + n + s2 + s3 - 1 < m * (p2 * (n * p3))).
  { assert (p2 + p3 - 1 <= p2 * p3) by nia. assert (2 <= m * n) by nia. assert (m + n <= m * n) by nia.
    assert (m * n + (p2 * p3 - 1) <= m * n * (p2 * p3)) by nia.
    nia. }
  nia.
Qed.

(** * Examples *)
Section Examples.
  Let str (s : pystr) : value := mkValue true false s (map (fun c => [c]) s).
  Let pylist : value := mkValue false false (lit "['a', 'b']") [lit "a"; lit "b"].
  Let kvs := [(lit "x", pylist); (lit "y", str (lit "q")); (lit "y", pylist)].
  Example C46_example_once :
    Forall (fun kv => v_haslen (snd kv) = false) kvs /\
    iterate 2 (given kvs) = Ok [[(lit "x", lit "['a', 'b']"); (lit "y", lit "['a', 'b']")]].
  Proof. split; [repeat constructor|vm_compute; reflexivity]. Qed.
  Let seq2 (a b : pystr) : value := mkValue false true (lit "?") [a; b].
  Example C46_example_lists :
    iterate 9 (given [(lit "x", seq2 (lit "a") (lit "b")); (lit "y", seq2 (lit "c") (lit "d"))]) =
    Ok [[(lit "x", lit "a"); (lit "y", lit "c")]; [(lit "x", lit "b"); (lit "y", lit "c")];
        [(lit "x", lit "b"); (lit "y", lit "d")]].
  Proof. vm_compute. reflexivity. Qed.
End Examples.

(** Proofs about the tailoring parser, DUCET lines and ducetCompare. *)
From Verif Require Import Py PyFacts M_UnicodeSets P_UnicodeSets M_Collation P_CollEsc P_Collation.
Open Scope N_scope.

(** * Only ValueError can come out of unescape *)
Lemma uhexsub_err s : forall k j e, uhexsub k j s = Raise e -> e = ValueError.
Proof.
  induction s as [|c s IH]; intros k j e H; [discriminate|]. cbn [uhexsub] in H.
  destruct j as [|j]; [|eauto].
  destruct k as [|k].
  - destruct (uhexsub 0 0 s) eqn:E; cbn in H; [discriminate|]. injection H as <-. eauto.
  - destruct (uhexesc_at (c :: s)) as [[n v]|].
    + unfold pychr in H. destruct (v <? 1114112); cbn [bind] in H; [|congruence].
      destruct (uhexsub k (n - 1) s) eqn:E; cbn in H; [discriminate|]. injection H as <-. eauto.
    + destruct (uhexsub (S k) 0 s) eqn:E; cbn in H; [discriminate|]. injection H as <-. eauto.
Qed.
Lemma unescape_err s e : coll_unescape s = Raise e -> e = ValueError.
Proof.
  unfold coll_unescape. destruct (uhexsub 2 0 s) eqn:E; cbn; [discriminate|].
  intros H. injection H as <-. eapply uhexsub_err; eauto.
Qed.

(** * Fresh keys *)
Notation spaces m := (repeat 32 m).
Lemma spaces_snoc (k : pystr) m : (k ++ spaces m) ++ [32] = k ++ spaces (S m).
Proof. rewrite <- app_assoc. f_equal. change [32] with (spaces 1). rewrite <- repeat_app. f_equal. lia. Qed.
Lemma spaces_inj (k : pystr) i j : k ++ spaces i = k ++ spaces j -> i = j.
Proof. intros H. apply app_inv_head in H. apply (f_equal (@length N)) in H. now rewrite !repeat_length in H. Qed.

Lemma fresh_key_spec (c : coll) k0 : forall fuel m,
  (forall j, (j < m)%nat -> In (k0 ++ spaces j) (dkeys c)) ->
  (length c <= fuel + m)%nat ->
  exists n, fresh_key fuel c (k0 ++ spaces m) = Ok (k0 ++ spaces n) /\
    ~ In (k0 ++ spaces n) (dkeys c) /\ (forall j, (j < n)%nat -> In (k0 ++ spaces j) (dkeys c)).
Proof.
  induction fuel as [|fuel IH]; intros m Hj Hl; cbn [fresh_key];
    destruct (dmem streq c (k0 ++ spaces m)) eqn:E.
  - exfalso. apply (dmem_spec streq streq_spec) in E.
    assert (L : (length (map (fun j => k0 ++ spaces j) (seq 0 (S m))) <= length (dkeys c))%nat).
    { apply NoDup_incl_length.
      - apply FinFun.Injective_map_NoDup; [|apply seq_NoDup]. intros i j. apply spaces_inj.
      - intros x Hx. apply in_map_iff in Hx as (j & <- & Hs). apply in_seq in Hs.
        destruct (Nat.eq_dec j m) as [->|]; [exact E|apply Hj; lia]. }
    unfold dkeys in L. rewrite !map_length, seq_length in L. lia.
  - exists m. repeat split; auto. intros X. apply (dmem_spec streq streq_spec) in X. congruence.
  - apply (dmem_spec streq streq_spec) in E. rewrite spaces_snoc.
    apply (IH (S m)); [|lia]. intros j Hjm.
    destruct (Nat.eq_dec j m) as [->|]; [exact E|apply Hj; lia].
  - exists m. repeat split; auto. intros X. apply (dmem_spec streq streq_spec) in X. congruence.
Qed.

Lemma dset_fresh {V} (c : list (pystr * V)) k v : ~ In k (dkeys c) -> dset streq c k v = c ++ [(k, v)].
Proof.
  induction c as [|[k' v'] c IH]; cbn; intros H; [reflexivity|].
  destruct (streq_spec k k') as [->|Hn]; [tauto|]. rewrite IH by tauto. reflexivity.
Qed.

Lemma coll_set_spec c k v :
  (In k (dkeys c) /\ coll_set c k v = Raise KeyError) \/
  (~ In k (dkeys c) /\ coll_set c k v = Ok (c ++ [(k, v)])).
Proof.
  unfold coll_set. destruct (dmem streq c k) eqn:E.
  - left. split; [now apply (dmem_spec streq streq_spec)|reflexivity].
  - right. assert (~ In k (dkeys c)).
    { intros X. apply (dmem_spec streq streq_spec) in X. congruence. }
    split; [assumption|]. now rewrite dset_fresh.
Qed.

Section Parse.
  Variables (ws isd : N -> bool) (dval : N -> N).

  (** one entry per relation, in order, each filed under a fresh key *)
  Fixpoint chain (c : coll) (base : pystr) (before : N) (n i : nat)
           (rels : list (pystr * pystr)) (new : coll) : Prop :=
    match rels, new with
    | [], [] => True
    | (op, text) :: rels', (key, e) :: new' =>
        exists el exp m,
          rel_key ws text = Ok (el, exp) /\ key = el ++ spaces m /\
          ~ In key (dkeys c) /\ (forall j, (j < m)%nat -> In (el ++ spaces j) (dkeys c)) /\
          e = CElt base (op_level ws op) before (n, i) exp /\
          chain (c ++ [(key, e)]) key 0 n (S (S i)) rels' new'
    | _, _ => False
    end.

  Lemma parse_rel_spec n i (c : coll) (base : pystr) before (op text : pystr) :
    (exists el exp m e, rel_key ws text = Ok (el, exp) /\
       ~ In (el ++ spaces m) (dkeys c) /\ (forall j, (j < m)%nat -> In (el ++ spaces j) (dkeys c)) /\
       e = CElt base (op_level ws op) before (n, i) exp /\
       parse_rel ws n i (c, base, before) (op, text) = Ok (c ++ [(el ++ spaces m, e)], el ++ spaces m, 0)) \/
    (rel_key ws text = Raise ValueError /\ parse_rel ws n i (c, base, before) (op, text) = Raise ValueError).
  Proof.
    unfold parse_rel. cbn [fst snd].
    destruct (rel_key ws text) as [[el exp]|e] eqn:E; cbn [bind].
    - left. destruct (fresh_key_spec c el (length c) 0) as (m & Hf & Hn & Hj); [lia|lia|].
      cbn [repeat] in Hf. rewrite app_nil_r in Hf. rewrite Hf. cbn [bind].
      destruct (coll_set_spec c (el ++ spaces m) (CElt base (op_level ws op) before (n, i) exp)) as [[X _]|[_ ->]];
        [contradiction|].
      eexists el, exp, m, _. repeat split; eauto.
    - right. assert (e = ValueError) as ->; [|auto].
      unfold rel_key in E. destruct (coll_unescape (drop_comments ws false text)) as [k|e'] eqn:E1; cbn [bind] in E.
      + destruct (find_char 47 k) as [[|p]|]; discriminate.
      + injection E as <-. eapply unescape_err; eauto.
  Qed.

  Definition grows (c c' : coll) : Prop :=
    exists new, c' = c ++ new /\ (NoDup (dkeys c) -> NoDup (dkeys c')).
  Lemma grows_refl c : grows c c.
  Proof. exists []. rewrite app_nil_r. auto. Qed.
  Lemma grows_trans a b c : grows a b -> grows b c -> grows a c.
  Proof.
    intros (n1 & -> & H1) (n2 & -> & H2). exists (n1 ++ n2). rewrite app_assoc. split; auto.
  Qed.
  Lemma grows_snoc c k e : ~ In k (dkeys c) -> grows c (c ++ [(k, e)]).
  Proof.
    intros H. exists [(k, e)]. split; [reflexivity|]. intros ND. unfold dkeys in *. rewrite map_app. cbn.
    apply Permutation_NoDup with (k :: map fst c); [apply Permutation_cons_append|]. now constructor.
  Qed.

  Lemma parse_rels_spec n : forall rels i (c : coll) (base : pystr) before,
    exists new e, parse_rels ws n i (c, base, before) rels = (c ++ new, e) /\
      grows c (c ++ new) /\ (e = None \/ e = Some ValueError) /\
      (e = None -> chain c base before n i rels new).
  Proof.
    induction rels as [|[op text] rels IH]; intros i c base before; cbn [parse_rels fst].
    - exists [], None. rewrite app_nil_r. repeat split; auto using grows_refl; try exact (fun _ => I).
    - destruct (parse_rel_spec n i c base before op text)
        as [(el & exp & m & e & Hr & Hn & Hj & He & HE)|[_ HE]]; rewrite HE.
      + destruct (IH (S (S i)) (c ++ [(el ++ spaces m, e)]) (el ++ spaces m) 0) as (new & e' & E & G & Ho & Hc).
        exists ((el ++ spaces m, e) :: new), e'. rewrite E, <- app_assoc. cbn [app]. repeat split; auto.
        * eapply grows_trans; [apply grows_snoc, Hn|]. rewrite <- app_assoc in G. exact G.
        * intros X. cbn [chain]. exists el, exp, m. repeat split; auto.
      + exists [], (Some ValueError). rewrite app_nil_r. repeat split; auto using grows_refl. discriminate.
  Qed.

  Fixpoint runs_chain (n : nat) (c : coll) (runs : list pystr) (news : list coll) : Prop :=
    match runs, news with
    | [], [] => True
    | run :: runs', new :: news' =>
        match run_bits ws isd dval run with
        | Ok (Some (base, before, rels)) => chain c base before n 1 rels new
        | Ok None => new = []
        | Raise _ => False
        end /\ runs_chain (S n) (c ++ new) runs' news'
    | _, _ => False
    end.

  Lemma run_bits_err run e : run_bits ws isd dval run = Raise e -> e = ValueError.
  Proof.
    unfold run_bits. destruct (op_split run) as [t r].
    destruct (coll_unescape (strip ws t)) as [u|e'] eqn:E; cbn [bind].
    - destruct (base_match ws isd dval u) as [[b bf]|]; discriminate.
    - intros H. injection H as <-. eapply unescape_err; eauto.
  Qed.

  Lemma parse_runs_spec : forall runs n (c : coll),
    exists news e, parse_runs ws isd dval n c runs = (c ++ concat news, e) /\
      grows c (c ++ concat news) /\ (e = None \/ e = Some ValueError) /\
      (e = None -> runs_chain n c runs news).
  Proof.
    induction runs as [|run runs IH]; intros n c; cbn [parse_runs].
    - exists [], None. cbn. rewrite app_nil_r. repeat split; auto using grows_refl; try exact (fun _ => I).
    - unfold parse_run. destruct (run_bits ws isd dval run) as [[[[base before] rels]|]|e] eqn:E.
      + destruct (parse_rels_spec n rels 1 c base before) as (new & e & -> & G & Ho & Hc).
        destruct e as [e|].
        * exists [new], (Some e). cbn [concat]. rewrite app_nil_r. (repeat split); auto; try discriminate.
        * destruct (IH (S n) (c ++ new)) as (news & e & -> & G2 & Ho2 & Hc2).
          exists (new :: news), e. cbn [concat]. rewrite app_assoc. split; [reflexivity|]. split; [|split; [exact Ho2|]].
          -- eapply grows_trans; eassumption.
          -- intros X. cbn [runs_chain]. rewrite E. auto.
      + destruct (IH (S n) c) as (news & e & -> & G2 & Ho2 & Hc2).
        exists ([] :: news), e. cbn [concat app]. split; [reflexivity|]. split; [exact G2|split; [exact Ho2|]].
        intros X. cbn [runs_chain]. rewrite E, app_nil_r. auto.
      + apply run_bits_err in E as ->. exists [], (Some ValueError). cbn. rewrite app_nil_r.
        repeat split; auto using grows_refl. discriminate.
  Qed.
End Parse.

(** * op_split *)
Lemma op_split_spec s : let (t, r) := op_split s in
  s = t ++ concat (map (fun p => fst p ++ snd p) r) /\
  forallb (fun c => negb (isop c)) t = true /\
  Forall (fun p => fst p <> [] /\ forallb isop (fst p) = true /\ forallb (fun c => negb (isop c)) (snd p) = true) r /\
  (forall a p q b, r = a ++ p :: q :: b -> snd p <> []).
Proof.
  induction s as [|c s IH]; cbn [op_split].
  - repeat split; auto. intros a p q b H. destruct a; discriminate.
  - destruct (op_split s) as [t r]. destruct IH as (-> & Ht & Hr & Hm).
    destruct (isop c) eqn:Ec.
    + destruct t as [|x t].
      * destruct r as [|[o t'] r'].
        { repeat split; auto.
          - repeat constructor; [discriminate|cbn; now rewrite Ec].
          - intros a p q b H. destruct a as [|? [|? ?]]; discriminate. }
        repeat split; auto.
        { inversion Hr as [|? ? (H1 & H2 & H3) H4]; subst. constructor; [|exact H4]. cbn [fst snd] in *.
          repeat split; [discriminate|cbn; now rewrite Ec, H2|exact H3]. }
        { intros a p q b H. destruct a as [|y a].
          - cbn in H. injection H as <- ->. exact (Hm [] (o, t') q b eq_refl).
          - cbn in H. injection H as <- ->. exact (Hm ((o, t') :: a) p q b eq_refl). }
      * assert (E : match r with [] => ([], [([c], x :: t)]) | _ => ([], ([c], x :: t) :: r) end
                    = ([] : pystr, ([c], x :: t) :: r)) by (destruct r; reflexivity).
        repeat split; auto.
        { constructor; [|exact Hr]. cbn [fst snd]. repeat split; [discriminate|cbn; now rewrite Ec|exact Ht]. }
        { intros a p q b H. destruct a as [|y a].
          - cbn in H. injection H as <- _. discriminate.
          - cbn in H. injection H as _ H. exact (Hm a p q b H). }
    + repeat split; auto. cbn. now rewrite Ec, Ht.
Qed.

(** * DUCET fields *)
Lemma take_hex_short : forall n l r, (length l < n)%nat ->
  (match r with [] => True | c :: _ => is_hex c = false end) -> take_hex n (l ++ r) = None.
Proof.
  induction n as [|n IH]; intros l r Hl Hr; [lia|]. destruct l as [|x l]; cbn [app take_hex].
  - destruct r as [|c r]; [reflexivity|]. now rewrite Hr.
  - destruct (is_hex x); [|reflexivity]. rewrite IH; [reflexivity|cbn in Hl; lia|exact Hr].
Qed.
Lemma find4_skip p r : find4 (length p) (p ++ r) = find4 0 r.
Proof. induction p as [|c p IH]; cbn; [destruct r; reflexivity|exact IH]. Qed.
Lemma find4_cons c s : find4 0 (c :: s) =
  match take_hex 4 (c :: s) with Some h => h :: find4 3 s | None => find4 0 s end.
Proof. reflexivity. Qed.
Lemma find4_short l r : (length l < 4)%nat ->
  (match r with [] => True | c :: _ => is_hex c = false end) -> find4 0 (l ++ r) = find4 0 r.
Proof.
  induction l as [|x l IH]; intros Hl Hr; [reflexivity|]. cbn [app]. rewrite find4_cons.
  change (x :: l ++ r) with ((x :: l) ++ r). rewrite take_hex_short by assumption. apply IH; [cbn in Hl; lia|exact Hr].
Qed.
Lemma find4_nohex l r : forallb (fun c => negb (is_hex c)) l = true -> find4 0 (l ++ r) = find4 0 r.
Proof.
  induction l as [|x l IH]; intros H; [reflexivity|]. cbn in H. apply andb_prop in H as [Hx H].
  cbn [app]. rewrite find4_cons. cbn [take_hex]. apply negb_true_iff in Hx. rewrite Hx. auto.
Qed.
Lemma find4_group g sep r : forallb is_hex g = true -> (4 <= length g <= 7)%nat ->
  sep <> [] -> forallb (fun c => negb (is_hex c)) sep = true ->
  find4 0 (g ++ sep ++ r) = firstn 4 g :: find4 0 r.
Proof.
  intros Hg Hl Hs Hn.
  destruct g as [|a [|b [|c [|d g]]]]; cbn in Hl; try lia.
  cbn [app]. rewrite find4_cons.
  change (a :: b :: c :: d :: g ++ sep ++ r) with ([a; b; c; d] ++ (g ++ sep ++ r)).
  cbn in Hg. rewrite !andb_true_iff in Hg. destruct Hg as (Ha & Hb & Hc & Hd & Hg).
  rewrite take_hex_app by (cbn; rewrite ?Ha, ?Hb, ?Hc, ?Hd; reflexivity).
  change (b :: c :: d :: g ++ sep ++ r) with ([b; c; d] ++ (g ++ sep ++ r)).
  change 3%nat with (length [b; c; d]). rewrite find4_skip.
  rewrite find4_short; [|lia|].
  - cbn [firstn]. now rewrite find4_nohex.
  - destruct sep as [|x sep]; [congruence|]. cbn in *. apply andb_prop in Hn as [Hn _]. now apply negb_true_iff in Hn.
Qed.

Lemma ducet_key_spec pre items :
  forallb (fun c => negb (is_hex c)) pre = true ->
  Forall (fun p : pystr * pystr => forallb is_hex (fst p) = true /\ (4 <= length (fst p) <= 7)%nat /\
     snd p <> [] /\ forallb (fun c => negb (is_hex c)) (snd p) = true) items ->
  ducet_key (pre ++ concat (map (fun p => fst p ++ snd p) items)) =
  map (fun p => hexnum (firstn 4 (fst p))) items.
Proof.
  intros Hp H. unfold ducet_key. rewrite find4_nohex by exact Hp. clear pre Hp.
  induction H as [|[g sep] items (H1 & H2 & H3 & H4) HF IH]; [reflexivity|].
  cbn [map concat fst snd] in *. rewrite <- app_assoc, find4_group by assumption. cbn [map]. now rewrite IH.
Qed.

Definition weight_text (star : bool) (a b c : pystr) : pystr :=
  91 :: (if star then 42 else 46) :: a ++ 46 :: b ++ 46 :: c ++ [93].

Lemma find_vals_skip p r : find_vals (length p) (p ++ r) = find_vals 0 r.
Proof. induction p as [|c p IH]; cbn [length app find_vals]; [destruct r; reflexivity|exact IH]. Qed.
Lemma find_vals_cons c s : find_vals 0 (c :: s) =
  match val_at (c :: s) with Some v => v :: find_vals 16 s | None => find_vals 0 s end.
Proof. reflexivity. Qed.
Lemma val_at_no c s : c <> 91 -> val_at (c :: s) = None.
Proof. intros H. unfold val_at. nodigit c. Qed.
Lemma find_vals_none l r : ~ In 91 l -> find_vals 0 (l ++ r) = find_vals 0 r.
Proof.
  induction l as [|x l IH]; intros H; [reflexivity|]. cbn [app]. rewrite find_vals_cons.
  rewrite val_at_no by (intros ->; apply H; now left). apply IH. intros X. apply H. now right.
Qed.
Lemma skipn_len {A} (a r : list A) n : length a = n -> skipn n (a ++ r) = r.
Proof. intros <-. now rewrite skipn_app, skipn_all, Nat.sub_diag. Qed.

Lemma find_vals_item star a b c r :
  length a = 4%nat -> length b = 4%nat -> length c = 4%nat ->
  forallb is_hex a = true -> forallb is_hex b = true -> forallb is_hex c = true ->
  find_vals 0 (weight_text star a b c ++ r) = (hexnum a, hexnum b, hexnum c) :: find_vals 0 r.
Proof.
  intros La Lb Lc Ha Hb Hc. unfold weight_text. cbn [app]. rewrite find_vals_cons.
  assert (V : val_at (91 :: (if star then 42 else 46) :: (a ++ 46 :: b ++ 46 :: c ++ [93]) ++ r)
              = Some (hexnum a, hexnum b, hexnum c)).
  { rewrite <- app_assoc. cbn [app]. rewrite <- app_assoc. cbn [app]. rewrite <- app_assoc. cbn [app].
    transitivity (
      if ((if star then 42 else 46) =? 46) || ((if star then 42 else 46) =? 42)
      then match take_hex 4 (a ++ 46 :: b ++ 46 :: c ++ 93 :: r) with
        | Some a' =>
            match skipn 4 (a ++ 46 :: b ++ 46 :: c ++ 93 :: r) with
            | 46 :: r2 =>
                match take_hex 4 r2 with
                | Some b' =>
                    match skipn 4 r2 with
                    | 46 :: r3 =>
                        match take_hex 4 r3 with
                        | Some c' => match skipn 4 r3 with
                                    | 93 :: _ => Some (hexnum a', hexnum b', hexnum c')
                                    | _ => None
                                    end
                        | None => None
                        end
                    | _ => None
                    end
                | None => None
                end
            | _ => None
            end
        | None => None
        end else None); [reflexivity|].
    replace (((if star then 42 else 46) =? 46) || ((if star then 42 else 46) =? 42))%bool with true by (destruct star; reflexivity).
    rewrite take_hex_app, skipn_len by assumption.
    rewrite take_hex_app, skipn_len by assumption.
    rewrite take_hex_app, skipn_len by assumption. reflexivity. }
  rewrite V. f_equal.
  replace 16%nat with (length ((if star then 42 else 46) :: a ++ 46 :: b ++ 46 :: c ++ [93])).
  - rewrite app_comm_cons. apply find_vals_skip.
  - cbn [length]. rewrite app_length. cbn [length]. rewrite app_length. cbn [length]. rewrite app_length. cbn. lia.
Qed.

Lemma lstrip_split ws s : exists p, s = p ++ lstrip ws s /\ forallb ws p = true.
Proof.
  induction s as [|c s (p & IH & H)]; [now exists []|]. cbn. destruct (ws c) eqn:E.
  - exists (c :: p). cbn. rewrite E, <- IH. auto.
  - now exists [].
Qed.
Lemma rstrip_split ws s : exists p, s = rstrip ws s ++ p /\ forallb ws p = true.
Proof.
  unfold rstrip. destruct (lstrip_split ws (rev s)) as (p & E & H). exists (rev p).
  split; [|now rewrite forallb_forall in *; intros x Hx; apply H; apply in_rev].
  rewrite <- (rev_involutive s) at 1. rewrite E at 1. now rewrite rev_app_distr.
Qed.
Lemma strip_head ws c s : ws c = false -> exists t, strip ws (c :: s) = c :: t.
Proof.
  intros H. unfold strip. cbn [lstrip]. rewrite H.
  destruct (rstrip_split ws (c :: s)) as (p & E & Hp). unfold rstrip in E.
  destruct (rev (lstrip ws (rev (c :: s)))) as [|x t] eqn:E2.
  - cbn in E. subst p. cbn in Hp. rewrite H in Hp. discriminate.
  - cbn in E. injection E as <- _. now exists t.
Qed.

(** * ducetCompare *)
Lemma first_diff_antisym a b : first_diff b a = option_map Z.opp (first_diff a b).
Proof.
  revert b; induction a as [|x a IH]; intros [|y b]; cbn; try reflexivity.
  rewrite (lcmp_antisym N.compare Ncmp_antisym x y). destruct (lcmp N.compare x y); cbn; auto.
Qed.
Lemma cmp_len_antisym a b : cmp_len b a = (- cmp_len a b)%Z.
Proof. unfold cmp_len. lia. Qed.
Lemma first_diff_refl a : first_diff a a = None.
Proof. induction a as [|x a IH]; cbn; [reflexivity|]. now rewrite (lcmp_refl N.compare Ncmp_eq). Qed.

Definition dneg (d : dcmp) : dcmp := match d with DVal z => DVal (- z) | DUnknown => DUnknown end.
Definition rneg (d : res dcmp) : res dcmp := match d with Ok d => Ok (dneg d) | Raise e => Raise e end.

Definition flip {A} (x : option (A * A)) : option (A * A) :=
  match x with Some (a, b) => Some (b, a) | None => None end.

Lemma finish_antisym a b ex : finish b a (flip ex) = dneg (finish a b ex).
Proof.
  unfold finish. rewrite (first_diff_antisym a b). destruct (first_diff a b); cbn [option_map dneg]; [reflexivity|].
  rewrite (cmp_len_antisym a b).
  destruct ex as [[a' b']|]; cbn [flip].
  - rewrite (first_diff_antisym a' b'). destruct (first_diff a' b'); cbn; [reflexivity|]. f_equal. lia.
  - cbn. f_equal. lia.
Qed.

Lemma first_diff_val a b z : first_diff a b = Some z -> z = 1%Z \/ z = (-1)%Z.
Proof.
  revert b; induction a as [|x a IH]; intros [|y b]; cbn; try discriminate.
  destruct (lcmp N.compare x y); [apply IH|..]; intros H; injection H as <-; auto.
Qed.
Lemma finish_val a b ex d : finish a b ex = d -> exists z, d = DVal z /\ In z [-4; -1; 0; 1; 4]%Z.
Proof.
  intros <-. unfold finish.
  assert (C : In (cmp_len a b * 4)%Z [-4; -1; 0; 1; 4]%Z).
  { unfold cmp_len. destruct (Nat.ltb_spec (length b) (length a)), (Nat.ltb_spec (length a) (length b)); cbn; auto; lia. }
  destruct (first_diff a b) as [z|] eqn:E.
  { apply first_diff_val in E. exists z. split; [reflexivity|]. cbn. intuition lia. }
  destruct ex as [[a' b']|]; [|eauto].
  destruct (first_diff a' b') as [z|] eqn:E2; [|eauto].
  apply first_diff_val in E2. exists z. split; [reflexivity|]. cbn. intuition lia.
Qed.

Section Ducet.
  Variable lower : N -> pystr.
  Variables isupper islower : N -> bool.
  Variable tab : list (pystr * list (N * N * N)).
  Notation dc := (ducetCompare lower isupper islower tab).

  Lemma swapcase_sym x y : swapcase lower isupper islower y x = swapcase lower isupper islower x y.
  Proof.
    unfold swapcase. rewrite streq_sym. f_equal. 
    destruct (isupper x), (islower y), (islower x), (isupper y); reflexivity.
  Qed.
  Lemma case_pair_sym a b : case_pair lower isupper islower b a = flip (case_pair lower isupper islower a b).
  Proof.
    revert b; induction a as [|x a IH]; intros [|y b]; cbn; try reflexivity.
    rewrite swapcase_sym. destruct (swapcase lower isupper islower x y); [reflexivity|apply IH].
  Qed.

  Lemma dc_known a b ka kb : dkey tab a = Some ka -> dkey tab b = Some kb -> dc a b = Ok (finish ka kb None).
  Proof. intros H1 H2. unfold ducetCompare. now rewrite H1, H2. Qed.

  Definition fallback (a b : pystr) (x y : N) : res dcmp :=
    match dkey tab [x], dkey tab [y] with
    | Some ka, Some kb =>
        match case_pair lower isupper islower a b with
        | None => Ok (finish ka kb None)
        | Some (u, v) => match dkey tab [u], dkey tab [v] with
                         | Some a', Some b' => Ok (finish ka kb (Some (a', b')))
                         | _, _ => Ok DUnknown
                         end
        end
    | _, _ => Ok DUnknown
    end.
  Lemma dc_fallback a b x y a' b' : a = x :: a' -> b = y :: b' ->
    (dkey tab a = None \/ dkey tab b = None) -> dc a b = fallback a b x y.
  Proof.
    intros Ea Eb H. unfold ducetCompare, fallback.
    assert (X : match dkey tab a, dkey tab b with Some p, Some q => Some (p, q) | _, _ => None end = None).
    { destruct H as [->| ->]; [reflexivity|]. now destruct (dkey tab a). }
    destruct (dkey tab a) as [ka|]; [destruct (dkey tab b); [discriminate|]|]; subst a b;
      destruct (dkey tab [x]); try reflexivity; destruct (dkey tab [y]); reflexivity.
  Qed.
  Lemma fallback_antisym a b x y : fallback b a y x = rneg (fallback a b x y).
  Proof.
    unfold fallback. destruct (dkey tab [x]) as [ka|], (dkey tab [y]) as [kb|]; try reflexivity.
    rewrite case_pair_sym. destruct (case_pair lower isupper islower a b) as [[u v]|]; cbn [flip].
    - destruct (dkey tab [u]), (dkey tab [v]); try reflexivity. cbn [rneg]. now rewrite <- finish_antisym.
    - cbn [rneg]. now rewrite <- finish_antisym.
  Qed.

  Lemma dc_antisym a b :
    (a <> [] /\ b <> []) \/ (dkey tab a <> None /\ dkey tab b <> None) -> dc b a = rneg (dc a b).
  Proof.
    intros H. destruct (dkey tab a) as [ka|] eqn:Ea; [destruct (dkey tab b) as [kb|] eqn:Eb|].
    - rewrite (dc_known a b ka kb), (dc_known b a kb ka) by assumption. cbn [rneg]. now rewrite <- finish_antisym.
    - destruct H as [[Ha Hb]|[_ H]]; [|congruence].
      destruct a as [|x a]; [congruence|]. destruct b as [|y b]; [congruence|].
      rewrite (dc_fallback (x :: a) (y :: b) x y a b), (dc_fallback (y :: b) (x :: a) y x b a) by auto.
      apply fallback_antisym.
    - destruct H as [[Ha Hb]|[H _]]; [|congruence].
      destruct a as [|x a]; [congruence|]. destruct b as [|y b]; [congruence|].
      rewrite (dc_fallback (x :: a) (y :: b) x y a b), (dc_fallback (y :: b) (x :: a) y x b a) by auto.
      apply fallback_antisym.
  Qed.
End Ducet.

(** the order of known strings: keys of the same number of levels *)
Definition glen (k : list (list N)) : Prop := k = [] \/ length k = 3%nat.
Lemma gen_key_len raw : glen (gen_key raw).
Proof. unfold gen_key, zip3. destruct raw; [now left|now right]. Qed.

Lemma first_diff_lcmp a b : length a = length b ->
  first_diff a b = match lcmp (lcmp N.compare) a b with Lt => Some 1%Z | Gt => Some (-1)%Z | Eq => None end.
Proof.
  revert b; induction a as [|x a IH]; intros [|y b] H; try discriminate; [reflexivity|].
  cbn. destruct (lcmp N.compare x y); [apply IH; now injection H|reflexivity..].
Qed.
Lemma finish_pos a b : glen a -> glen b -> exists z, finish a b None = DVal z /\
  ((0 < z)%Z <-> length a = 3%nat /\ (b = [] \/ (length b = 3%nat /\ lcmp (lcmp N.compare) a b = Lt))) /\
  (z = 0%Z <-> a = b).
Proof.
  intros Ha Hb. unfold finish.
  destruct Ha as [->|La], Hb as [->|Lb].
  - exists 0%Z. repeat split; auto; cbn in *; intros; intuition lia.
  - exists (-4)%Z. split; [destruct b as [|? [|? [|? [|]]]]; try discriminate; reflexivity|].
    split; [cbn; split; [lia|intros [X _]; discriminate]|]. split; [lia|intros <-; discriminate].
  - exists 4%Z. split; [destruct a as [|? [|? [|? [|]]]]; try discriminate; reflexivity|].
    split; [split; [auto|lia]|]. split; [lia|intros ->; discriminate].
  - rewrite first_diff_lcmp by congruence.
    assert (Heq : lcmp (lcmp N.compare) a b = Eq <-> a = b) by (apply lcmp_eq; intros; apply lcmp_eq, Ncmp_eq).
    destruct (lcmp (lcmp N.compare) a b) eqn:E.
    + exists 0%Z. split; [unfold cmp_len; rewrite La, Lb; reflexivity|].
      split; [|split; [intros _; now apply Heq|auto]].
      split; [lia|]. intros [_ [->|[_ X]]]; discriminate.
    + exists 1%Z. split; [reflexivity|]. split; [split; [auto|lia]|].
      split; [lia|]. intros X. apply Heq in X. discriminate.
    + exists (-1)%Z. split; [reflexivity|]. split; [split; [lia|]|].
      * intros [_ [->|[_ X]]]; discriminate.
      * split; [lia|]. intros X. apply Heq in X. discriminate.
Qed.

Lemma finish_trans a b c x y : glen a -> glen b -> glen c ->
  finish a b None = DVal x -> finish b c None = DVal y -> (0 < x)%Z -> (0 < y)%Z ->
  exists z, finish a c None = DVal z /\ (0 < z)%Z.
Proof.
  intros Ha Hb Hc Ex Ey Hx Hy.
  destruct (finish_pos a b Ha Hb) as (x' & Ex' & Px & _). rewrite Ex in Ex'. injection Ex' as <-.
  destruct (finish_pos b c Hb Hc) as (y' & Ey' & Py & _). rewrite Ey in Ey'. injection Ey' as <-.
  destruct (finish_pos a c Ha Hc) as (z & Ez & Pz & _). exists z. split; [exact Ez|].
  apply Pz. apply Px in Hx as [L1 Hx]. apply Py in Hy as [L2 Hy].
  split; [exact L1|]. destruct Hy as [->|[L3 Hy]]; [now left|].
  destruct Hx as [->|[_ Hx]]; [discriminate|]. right. split; [exact L3|].
  eapply lcmp_trans; [..|exact Hx|exact Hy].
  - intros; apply lcmp_eq, Ncmp_eq.
  - intros p q r. apply lcmp_trans; [apply Ncmp_eq|apply Ncmp_trans].
Qed.

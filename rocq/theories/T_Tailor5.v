(** C58: elements with an expansion, given directly or as the rest of a base. *)
From Verif Require Import Py PyFacts M_UnicodeSets P_UnicodeSets M_Collation P_Collation P_Collation2 T_Collation
  M_Tailor P_Tailor T_Tailor T_Tailor4.
Open Scope nat_scope.

(** no element of the collation occurs in the string *)
Definition untailored (elts : list (pystr * tel)) (s : pystr) : Prop :=
  forall p q r, s = p ++ q ++ r -> q <> [] -> ~ In q (map fst elts).
(** the base and the expansion of an element: as given, or else the base is cut after its longest beginning that is an
    element or in DUCET *)
Definition cut {W} (d : list (pystr * list (W * W * W))) (elts : list (pystr * tel)) (e : tel) (b x : pystr) : Prop :=
  (t_exp e <> [] /\ t_base e = b /\ t_exp e = x) \/
  (t_exp e = [] /\ t_base e = b ++ x /\ b <> [] /\ (In b (map fst elts) \/ In b (map fst d)) /\
   forall p q, t_base e = p ++ q -> length b < length p -> ~ In p (map fst elts) /\ ~ In p (map fst d)).

Section X.
  Context {W : Type}.
  Variable d : list (pystr * list (W * W * W)).

  Lemma look_un st p : ~ In p (map fst (ts_elts st)) -> look_extra d st p = Ok (key_of d (fun _ => None) None p).
  Proof.
    intros N. unfold look_extra. destruct (dget streq (ts_elts st) p) as [e|] eqn:E; [|reflexivity].
    exfalso. apply N. apply (dget_Some_iff _ streq_spec). eauto.
  Qed.
  Lemma longest_un st k : untailored (ts_elts st) k -> forall i, i <= length k ->
    longest_r (look_extra d st) k i = Ok (longest (key_of d (fun _ => None) None) k i).
  Proof.
    intros U. induction i as [|i IH]; intros L; [reflexivity|]. cbn [longest_r longest]. rewrite look_un.
    - cbn [bind]. destruct (key_of d (fun _ => None) None (firstn (S i) k)); [reflexivity|]. apply IH. lia.
    - apply (U [] (firstn (S i) k) (skipn (S i) k)); [now rewrite firstn_skipn|]. destruct k; [cbn in L; lia|discriminate].
  Qed.
  Lemma loop_un st fuel : forall k acc, untailored (ts_elts st) k ->
    sortkey_loop_r (look_extra d st) fuel k acc = sortkey_loop (key_of d (fun _ => None) None) fuel k acc.
  Proof.
    induction fuel as [|f IH]; intros k acc U; destruct k as [|c k]; try reflexivity; cbn [sortkey_loop_r sortkey_loop];
      rewrite longest_un by (exact U || reflexivity); cbn [bind];
      destruct (longest _ _ _) as [[i [[a b] c0]]|]; try reflexivity.
    apply IH. intros p q r E. apply (U (firstn i (c :: k) ++ p) q r).
    rewrite <- app_assoc, <- E. now rewrite firstn_skipn.
  Qed.
  Lemma xkey_un wcmp zero st k : untailored (ts_elts st) k -> xkey wcmp zero d st k = dkey wcmp zero d k.
  Proof. intros U. unfold xkey, dkey, ducetSortKey. now rewrite loop_un. Qed.

  Lemma longest_known_spec known s b x : s = b ++ x -> b <> [] -> known b = true ->
    (forall p q, s = p ++ q -> length b < length p -> known p = false) ->
    forall i, length b <= i <= length s -> longest_known known s i = Some (length b).
  Proof.
    intros E Nb Kb Kp. induction i as [|i IH]; intros L.
    - destruct b; [congruence|cbn in L; lia].
    - cbn [longest_known]. destruct (Nat.eq_dec (length b) (S i)) as [E1|N].
      + rewrite <- E1, E, firstn_app, Nat.sub_diag, firstn_all. cbn. rewrite app_nil_r, Kb. reflexivity.
      + rewrite (Kp (firstn (S i) s) (skipn (S i) s)).
        * apply IH. lia.
        * now rewrite firstn_skipn.
        * rewrite firstn_length. lia.
  Qed.
  Lemma expand_cut elts e b x st : ts_elts st = elts -> cut d elts e b x ->
    expand (t_known d st) e = set_base_exp e b x.
  Proof.
    intros E [(N & <- & <-)|(E0 & Eb & Nb & K & L)]; unfold expand.
    - destruct e as [tb tl tbf to tx ts tk]. cbn in *. destruct tx; [congruence|reflexivity].
    - rewrite E0. unfold t_known. rewrite E.
      rewrite (longest_known_spec _ _ b x Eb Nb).
      + rewrite Eb, firstn_app, skipn_app, Nat.sub_diag, firstn_all, skipn_all. cbn. now rewrite app_nil_r.
      + apply orb_true_iff. destruct K as [K|K]; [left|right]; now apply (dmem_spec _ streq_spec).
      + intros p q Ep Lp. destruct (L p q Ep Lp) as [L1 L2]. apply orb_false_iff. split.
        * destruct (dmem streq elts p) eqn:Ed; [|reflexivity]. apply (dmem_spec _ streq_spec) in Ed. contradiction.
        * destruct (dmem streq d p) eqn:Ed; [|reflexivity]. apply (dmem_spec _ streq_spec) in Ed. contradiction.
      + rewrite Eb, app_length. lia.
  Qed.
End X.

(** An element whose base is not an element gets the key of the base, changed as its relation says, followed level by
    level by the key of the expansion. *)
Theorem C58_expansion :
  forall W (wcmp : W -> W -> comparison) (zero one : W) bump drop d nb n force fuel st k e b x vb vx,
    dget streq (ts_elts st) k = Some e -> t_key e = None ->
    cut d (ts_elts st) e b x -> x <> [] ->
    ~ In b (map fst (ts_elts st)) -> untailored (ts_elts st) x ->
    dkey wcmp zero d b = Ok vb -> dkey wcmp zero d x = Ok vx ->
    (forall j, j < 3 -> nth j vb [] <> []) ->
    exists st' v, set_one wcmp zero one bump drop d nb n force (S fuel) st k = Ok st' /\
      key_at st' k = Some [nth 0 v [] ++ nth 0 vx []; nth 1 v [] ++ nth 1 vx []; nth 2 v [] ++ nth 2 vx []] /\
      ((4 <= t_level e) -> v = vb) /\
      (forall l, t_level e = S l -> l < 3 ->
         (t_before e = N.of_nat (S l) -> last_changed (drop nb n) l vb v) /\
         (t_before e <> N.of_nat (S l) -> last_changed (bump nb n) l vb v)).
Proof.
  intros W wcmp zero one bump drop d nb n force fuel st k e b x vb vx He Hk HC Nx Nb U DB DX NE.
  unfold set_one. rewrite He. rewrite (expand_cut d (ts_elts st) e b x st eq_refl HC).
  set (e1 := set_base_exp e b x). set (st1 := t_set st k e1).
  assert (K1 : dget streq (ts_elts st1) k = Some e1) by (cbn; apply (dget_dset_same _ streq_spec)).
  assert (KK : forall e0, map fst (dset streq (ts_elts st) k e0) = map fst (ts_elts st)).
  { intros e0. change (dkeys (dset streq (ts_elts st) k e0) = dkeys (ts_elts st)).
    rewrite (dkeys_dset _ streq_spec). assert (M : dmem streq (ts_elts st) k = true).
    { apply (dmem_spec _ streq_spec). apply (dget_Some_iff _ streq_spec). eauto. }
    now rewrite M. }
  assert (NB : forall e0, dget streq (dset streq (ts_elts st) k e0) b = None).
  { intros e0. apply (dget_None _ streq_spec). unfold dkeys. rewrite KK. exact Nb. }
  assert (LB : length vb = 3) by (eapply dkey_len; exact DB).
  assert (LX : length vx = 3) by (eapply dkey_len; exact DX).
  assert (SH : exists v, shift_key bump drop nb n e vb = Ok v).
  { unfold shift_key. destruct (Nat.ltb (t_level e) 4) eqn:E4; [|eauto]. apply Nat.ltb_lt in E4.
    set (i := match t_level e with 0 => length vb - 1 | S i => i end).
    assert (Hi : i < 3) by (unfold i; destruct (t_level e); lia).
    unfold level. destruct (nth_error vb i) as [l|] eqn:En; [|apply nth_error_None in En; lia]. cbn [bind].
    assert (Nl : l <> []) by (rewrite <- (nth_error_nth vb i [] En); now apply NE).
    destruct (exists_last Nl) as (p & y & ->).
    match goal with |- context[upd_last ?f _] => rewrite (proj2 (upd_last_spec f (p ++ [y]) (p ++ [f y]))) end;
      [eauto|]. exists p, y. split; reflexivity. }
  destruct SH as (v & SH). assert (LV : length v = 3) by (destruct (shift_spec bump drop nb n e vb v LB SH) as [[_ ->]|[_ X]]; [exact LB|apply X]).
  assert (RES : exists st', sortkey wcmp zero one bump drop d nb n force (S fuel) st1 k = Ok st' /\
                 key_at st' k = Some (sk_add v vx)).
  { cbn [sortkey]. rewrite K1. change (t_key e1) with (t_key e). rewrite Hk. change (t_base e1) with b. rewrite DB.
    cbn [bind]. unfold alloc at 1.
    set (len := length (ts_cells st1)). set (kr := KRef false len).
    set (st3 := t_set (with_cells st1 (ts_cells st1 ++ [vb])) k (set_key e1 kr)).
    assert (NB3 : dget streq (ts_elts st3) b = None).
    { unfold st3, st1. cbn [t_set with_elts with_cells ts_elts]. rewrite (dset_dset _ streq_spec) || idtac.
      apply (dget_None _ streq_spec). unfold dkeys. intros X.
      apply (in_dkeys_dset _ streq_spec) in X. destruct X as [->|X].
      - apply Nb. apply (dget_Some_iff _ streq_spec). eauto.
      - unfold dkeys in X. rewrite KK in X. contradiction. }
    rewrite NB3. unfold kcopy at 1. cbn [k_plain kr]. unfold alloc at 1.
    assert (D3 : deref st3 kr = vb).
    { unfold deref, st3, kr. cbn [t_set with_elts with_cells ts_cells k_cell]. unfold len. now rewrite nth_middle. }
    rewrite D3. cbn [bind].
    set (st4 := with_cells st3 (ts_cells st3 ++ [vb])).
    set (r := KRef false (length (ts_cells st3))).
    assert (D4 : deref st4 r = vb).
    { unfold deref, st4, r. cbn [with_cells ts_cells k_cell]. now rewrite nth_middle. }
    rewrite D4. change (shift_key bump drop nb n e1 vb) with (shift_key bump drop nb n e vb). rewrite SH. cbn [bind].
    set (st5 := with_cells st4 (set_nth (k_cell r) v (ts_cells st4))).
    assert (D5 : deref st5 r = v).
    { unfold deref, st5, st4, r. cbn [with_cells ts_cells k_cell]. generalize (ts_cells st3). intros l.
      induction l as [|y l IH]; [reflexivity|exact IH]. }
    assert (NB5 : dget streq (ts_elts st5) b = None) by exact NB3. rewrite NB5.
    unfold finish_key.
    assert (K5 : dget streq (ts_elts st5) k = Some (set_key e1 kr)) by (apply (dget_dset_same _ streq_spec)).
    rewrite K5. change (t_exp (set_key e1 kr)) with x.
    destruct x as [|x0 x]; [congruence|]. cbv zeta.
    set (st6 := t_set st5 k (set_exp (set_key e1 kr) (x0 :: x))).
    rewrite (xkey_un d wcmp zero st6).
    2:{ intros p q r0 E Nq X. apply (U p q r0 E Nq). 
        unfold st6, st5, st4, st3, st1 in X. cbn [t_set with_elts with_cells ts_elts] in X.
        apply (in_dkeys_dset _ streq_spec) in X. destruct X as [->|X]; [apply (dget_Some_iff _ streq_spec); eauto|].
        apply (in_dkeys_dset _ streq_spec) in X. destruct X as [->|X]; [apply (dget_Some_iff _ streq_spec); eauto|].
        unfold dkeys in X. now rewrite KK in X. }
    rewrite DX. cbn [bind]. change (deref st6 r) with (deref st5 r). rewrite D5.
    assert (GT : exists g, sk_gt wcmp zero vx (Some v) = Ok g).
    { unfold sk_gt, sk_cmp, diffLevel. destruct vx as [|a1 [|a2 [|a3 [|]]]]; try discriminate LX.
      destruct v as [|b1 [|b2 [|b3 [|]]]]; try discriminate LV. cbn [diff_from level nth_error bind].
      destruct (lcmp _ _ _); cbn [bind]; eauto. destruct (lcmp _ _ _); cbn [bind]; eauto. destruct (lcmp _ _ _); cbn [bind]; eauto. }
    destruct GT as (g & ->). cbn [bind].
    assert (FIN : forall st7 s, deref st7 r = v -> ts_elts st7 = ts_elts st6 ->
      exists st', (let (st8, kr0) := alloc st7 (sk_add (deref st7 r) vx) in
        Ok (t_set st8 k (set_key (set_short (set_exp (set_key e1 kr) (x0 :: x)) s) kr0))) = Ok st' /\
        key_at st' k = Some (sk_add v vx)).
    { intros st7 s D7 _. rewrite D7. unfold alloc. eexists. split; [reflexivity|]. unfold key_at.
      cbn [t_set with_elts with_cells ts_elts]. rewrite (dget_dset_same _ streq_spec). cbn [t_key set_key].
      unfold deref. cbn [t_set with_elts with_cells ts_cells k_cell]. now rewrite nth_middle. }
    assert (RL : k_cell r < length (ts_cells st6)).
    { unfold st6, st5, st4, r. cbn [t_set with_elts with_cells ts_cells k_cell]. generalize (ts_cells st3). intros l.
      clear. induction l as [|y l IH]; cbn in *; lia. }
    assert (AL : forall y, deref (with_cells st6 (ts_cells st6 ++ [y])) r = v).
    { intros y. unfold deref. cbn [with_cells ts_cells]. rewrite app_nth1 by exact RL. exact D5. }
    destruct g.
    - unfold alloc at 1. apply FIN; [apply AL|reflexivity].
    - unfold kcopy. cbn [k_plain r]. unfold alloc at 1. apply FIN; [apply AL|reflexivity]. }
  destruct RES as (st' & R1 & R2). exists st', v. split; [exact R1|]. split.
  { rewrite R2. destruct vx as [|a1 [|a2 [|a3 [|]]]]; try discriminate LX.
    destruct v as [|b1 [|b2 [|b3 [|]]]]; try discriminate LV. reflexivity. }
  destruct (shift_spec bump drop nb n e vb v LB SH) as [[H4 ->]|[H3 LC]].
  - split; [auto|]. intros l E Hl. lia.
  - split; [lia|]. intros l E Hl. rewrite E in LC. split; intros B.
    + rewrite B in LC. rewrite N.eqb_refl in LC. destruct (N.eqb_spec (N.of_nat (S l)) 0) as [X|X]; [lia|exact LC].
    + destruct (N.eqb (t_before e) 0); [exact LC|]. destruct (N.eqb_spec (t_before e) (N.of_nat (S l))) as [X|X]; [contradiction|exact LC].
Qed.

(** "&ab < x", with "a" and "b" but not "ab" in DUCET *)
Example C58_ex_expansion : forall v, 
  let d := [(lit "a", [(100, 32, 2)]); (lit "b", [(101, 32, 2)])]%nat in
  let e := TEl (lit "ab") 1 0%N [1; 1] [] None None in
  exists st', set_one Nat.compare 0 1 (fun _ _ w => w + v) (fun _ _ w => w - v) d 0 1 false 1 (TSt [(lit "x", e)] [] false) (lit "x") = Ok st' /\
    key_at st' (lit "x") = Some [[100 + v; 101]; [32; 32]; [2; 2]].
Proof.
  intros v d e.
  destruct (C58_expansion nat Nat.compare 0 1 (fun _ _ w => w + v) (fun _ _ w => w - v) d 0 1 false 0
     (TSt [(lit "x", e)] [] false) (lit "x") e (lit "a") (lit "b") [[100]; [32]; [2]] [[101]; [32]; [2]]) as (st' & w & R & K & _ & C).
  - reflexivity.
  - reflexivity.
  - right. split; [reflexivity|]. split; [reflexivity|]. split; [discriminate|]. split; [right; now left|].
    intros p q E L. cbn in L. destruct p as [|c1 [|c2 p]]; try (cbn in L; lia).
    split; [intros [X|[]]; discriminate X|intros [X|[X|[]]]; discriminate X].
  - discriminate.
  - intros [X|[]]. discriminate X.
  - intros p q r E Nq [X|[]]. cbn in X. subst q. destruct p as [|c p]; [discriminate E|].
    apply (f_equal (@length _)) in E. cbn in E. rewrite app_length in E. cbn in E. lia.
  - reflexivity.
  - reflexivity.
  - intros j Hj. destruct j as [|[|[|j]]]; cbn; try discriminate. lia.
  - exists st'. split; [exact R|]. rewrite K.
    destruct (C 0 eq_refl ltac:(lia)) as [_ C2]. destruct C2 as (_ & Lw & O & pre & w0 & E1 & E2); [discriminate|].
    rewrite (O 1), (O 2) by lia. cbn [nth] in E1. destruct pre as [|? [|]]; try discriminate E1. injection E1 as <-.
    rewrite E2. reflexivity.
Qed.

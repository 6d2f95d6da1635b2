(** C13-C17: language tags (lib/sldr/langtags_full.py).
    [lower], [upper] and [title] are Python's case mappings, universally quantified. *)
From Verif Require Import Py PyFacts M_LangTags P_LangTags P_Collation P_Collation2.
Local Open Scope nat_scope.

(** ** C13 *)
Definition is_sep (c : N) : Prop := c = HY \/ c = US.
(** the same string up to the choice of separator at each position *)
Definition same_up_to_separators (x y : pystr) : Prop :=
  Forall2 (fun a b => a = b \/ (is_sep a /\ is_sep b)) x y.

Theorem C13_separators lower upper title t x y :
  same_up_to_separators x y -> parse lower upper title t x = parse lower upper title t y.
Proof.
  intros H. unfold parse. assert (E : bits_of x = bits_of y); [|now rewrite E].
  unfold bits_of. f_equal. induction H as [|a b x y Hab H IH]; cbn [map]; [reflexivity|].
  rewrite IH. f_equal. destruct Hab as [->|[[->| ->] [->| ->]]]; reflexivity.
Qed.

Example C13_example :
  same_up_to_separators (lit "en_Latn-US_x-foo") (lit "en-Latn_US-x_foo") /\
  lit "en_Latn-US_x-foo" <> lit "en-Latn_US-x_foo".
Proof.
  split; [|discriminate]. repeat (constructor; [cbn; unfold is_sep, HY, US; auto|]). constructor.
Qed.

(** ** C14 *)
(** no separator inside a subtag *)
Definition plain (s : pystr) : Prop := ~ In HY s /\ ~ In US s.

Record well_formed (lower upper title : pystr -> pystr) (t : tag) : Prop := {
  wf_lang : exists l, t_lang t = Some l /\ 2 <= length l <= 3 /\ plain l /\ lower l = l;
  wf_script : forall s, t_script t = Some s -> length s = 4 /\ plain s /\ title s = s;
  (* an alphabetic three character region is read as an extended language if no script
     comes before it *)
  wf_region : forall r, t_region t = Some r ->
     2 <= length r <= 3 /\ plain r /\ upper r = r /\
     (t_script t = None -> length r = 3 -> exists c r', r = c :: r' /\ is_digit c = true);
  (* a four character variant is read as the script if it is the first one and there is no
     script *)
  wf_vars : forall vs, t_vars t = Some vs ->
     vs <> [] /\ Forall (fun v => plain v /\ lower v = v /\ 4 <= length v) vs /\
     (t_script t = None -> forall v vs', vs = v :: vs' -> length v <> 4);
  wf_exts : forall d, t_exts t = Some d ->
     d <> [] /\ NoDup (map fst d) /\
     Forall (fun kv => length (fst kv) = 1 /\ plain (fst kv) /\ lower (fst kv) = fst kv /\
                       Forall (fun m => plain m /\ lower m = m /\ 2 <= length m) (snd kv)) d
}.

(** what the full form keeps of the extensions: the same names, and for each name the same
    members in sorted order *)
Definition same_exts (a b : option (list (pystr * list pystr))) : Prop :=
  match a, b with
  | None, None => True
  | Some d, Some d' => NoDup (map fst d') /\
      forall k, dget streq d' k = option_map (isort strleb) (dget streq d k)
  | _, _ => False
  end.

Lemma plain_map s : plain s -> map (fun c => if N.eqb c US then HY else c) s = s.
Proof.
  intros [_ H]. induction s as [|c s IH]; cbn [map]; [reflexivity|].
  rewrite IH by (intros Hi; apply H; right; exact Hi).
  destruct (N.eqb_spec c US) as [->|_]; [exfalso; apply H; left; reflexivity | reflexivity].
Qed.

Lemma map_join f sep l : map f (join sep l) = join (map f sep) (map (map f) l).
Proof.
  induction l as [|x [|y l] IH]; [reflexivity | reflexivity |].
  change (join sep (x :: y :: l)) with (x ++ sep ++ join sep (y :: l)).
  change (map (map f) (x :: y :: l)) with (map f x :: map (map f) (y :: l)).
  change (join (map f sep) (map f x :: map (map f) (y :: l)))
    with (map f x ++ map f sep ++ join (map f sep) (map (map f) (y :: l))).
  rewrite !map_app, IH. reflexivity.
Qed.

Lemma bits_of_join l : l <> [] -> Forall plain l -> bits_of (join [HY] l) = l.
Proof.
  intros Hne H. unfold bits_of. rewrite map_join.
  change (map (fun c => if N.eqb c US then HY else c) [HY]) with [HY].
  replace (map (map (fun c => if N.eqb c US then HY else c)) l) with l.
  - apply split_join; [exact Hne|]. eapply Forall_impl; [|exact H]. intros a [Ha _]. exact Ha.
  - symmetry. induction H as [|a l Ha H IH]; cbn [map]; [reflexivity|].
    rewrite plain_map by exact Ha. f_equal. destruct l; [reflexivity | apply IH; discriminate].
Qed.

Lemma len23_true b : 2 <= length b <= 3 -> len23 b = true.
Proof. intros H. unfold len23. rewrite (proj2 (Nat.ltb_lt _ _)), (proj2 (Nat.ltb_lt _ _)) by lia. reflexivity. Qed.
Lemma len23_false b : length b <> 2 -> length b <> 3 -> len23 b = false.
Proof.
  intros H1 H2. unfold len23. destruct (Nat.ltb_spec 1 (length b)); destruct (Nat.ltb_spec (length b) 4);
    cbn; try reflexivity. lia.
Qed.

Section C14.
Variables lower upper title : pystr -> pystr.

Lemma wf_repr_plain t : well_formed lower upper title t -> Forall plain (repr_tags t).
Proof.
  intros [(l & El & _ & Hl & _) HS HR HV HE]. unfold repr_tags. rewrite El.
  rewrite !Forall_app. split; [|split; [|split; [|split]]].
  - repeat constructor; apply Hl.
  - destruct (t_script t) as [s|]; constructor; [|constructor]. now apply HS.
  - destruct (t_region t) as [s|]; constructor; [|constructor]. now apply HR.
  - destruct (t_vars t) as [vs|]; [|constructor]. destruct (HV vs eq_refl) as (_ & H & _).
    eapply Forall_impl; [|exact H]. intros a Ha. apply Ha.
  - destruct (t_exts t) as [d|] eqn:E.
    + rewrite (ext_list_canon t d E). destruct (HE d eq_refl) as (_ & _ & H).
      apply Forall_forall. intros x Hx. apply in_flat_map in Hx. destruct Hx as ((k & ms) & Hin & Hx).
      unfold canon_exts in Hin. apply in_map_iff in Hin. destruct Hin as (k' & Ek & Hk).
      injection Ek as -> <-. apply in_isort in Hk.
      apply (dget_Some_iff streq streq_spec) in Hk. destruct Hk as [v Hv].
      rewrite Forall_forall in H. pose proof (H _ (dget_In streq streq_spec d k v Hv)) as (_ & H2 & _ & H3).
      cbn [fst snd] in *. unfold dgetl in Hx. rewrite Hv in Hx. destruct Hx as [<-|Hx]; [exact H2|].
      apply in_isort in Hx. rewrite Forall_forall in H3. apply (H3 _ Hx).
    + unfold ext_list. rewrite E. constructor.
Qed.

Lemma parse_rest_wf t0 t :
  well_formed lower upper title t -> t_vars t0 = None -> t_exts t0 = None ->
  parse_rest lower t0 (olists (t_vars t) ++ ext_list t)
  = set_exts (set_vars t0 (t_vars t)) (option_map canon_exts (t_exts t)).
Proof.
  intros [_ _ _ HV HE] Hv0 He0. unfold parse_rest. rewrite fold_left_app.
  assert (E1 : fold_left (ext_step lower) (olists (t_vars t)) ([], [], []) = ([], [], olists (t_vars t))).
  { destruct (t_vars t) as [vs|]; [|reflexivity]. cbn [olists].
    destruct (HV vs eq_refl) as (_ & H & _). rewrite ext_vars; [reflexivity|].
    eapply Forall_impl; [|exact H]. intros a (_ & Ha & Hb). split; [exact Ha | lia]. }
  rewrite E1.
  assert (E2 : exists ns, fold_left (ext_step lower) (ext_list t) ([], [], olists (t_vars t))
     = (ns, match t_exts t with Some d => canon_exts d | None => [] end, olists (t_vars t))).
  { destruct (t_exts t) as [d|] eqn:E.
    - rewrite (ext_list_canon t d E). destruct (HE d eq_refl) as (_ & ND & H).
      apply (ext_groups lower (canon_exts d) [] []).
      + apply canon_NoDup. exact ND.
      + apply Forall_forall. intros (k & ms) Hin. unfold canon_exts in Hin.
        apply in_map_iff in Hin. destruct Hin as (k' & Ek & Hk). injection Ek as -> <-.
        apply in_isort in Hk. apply (dget_Some_iff streq streq_spec) in Hk. destruct Hk as [v Hv].
        rewrite Forall_forall in H. pose proof (H _ (dget_In streq streq_spec d k v Hv)) as (H1 & _ & H2 & H3).
        cbn [fst snd] in *. split; [exact H1|]. split; [exact H2|].
        apply Forall_forall. intros x Hx. apply in_isort in Hx. unfold dgetl in Hx. rewrite Hv in Hx.
        rewrite Forall_forall in H3. destruct (H3 _ Hx) as (_ & Ha & Hb). split; [exact Ha | lia].
    - exists []. unfold ext_list. rewrite E. reflexivity. }
  destruct E2 as [ns E2]. rewrite E2.
  destruct t0 as [a1 a2 a3 a4 a5 a6 a7 a8 a9]; cbn [t_vars t_exts] in *; subst a4 a5.
  destruct (t_vars t) as [vs|] eqn:Ev; destruct (t_exts t) as [d|] eqn:Ed; cbn [olists option_map].
  - destruct (HV vs eq_refl) as (Hne & _). destruct vs; [congruence|].
    destruct (HE d eq_refl) as (Hd & _). destruct (canon_exts d) eqn:Ec; [|reflexivity].
    exfalso. destruct d as [|[k v] d]; [congruence|].
    assert (dkeys (canon_exts ((k, v) :: d)) = []) as Hk by (rewrite Ec; reflexivity).
    rewrite dkeys_canon in Hk. pose proof (isort_perm strleb (dkeys ((k,v)::d))) as P.
    rewrite Hk in P. apply Permutation_sym, Permutation_nil in P. discriminate P.
  - destruct (HV vs eq_refl) as (Hne & _). destruct vs; [congruence|]. reflexivity.
  - destruct (HE d eq_refl) as (Hd & _). destruct (canon_exts d) eqn:Ec; [|reflexivity].
    exfalso. destruct d as [|[k v] d]; [congruence|].
    assert (dkeys (canon_exts ((k, v) :: d)) = []) as Hk by (rewrite Ec; reflexivity).
    rewrite dkeys_canon in Hk. pose proof (isort_perm strleb (dkeys ((k,v)::d))) as P.
    rewrite Hk in P. apply Permutation_sym, Permutation_nil in P. discriminate P.
  - reflexivity.
Qed.

(** first subtag of what follows the region *)
Lemma rest_head t : well_formed lower upper title t ->
  match olists (t_vars t) ++ ext_list t with
  | [] => True
  | b :: _ => length b <> 2 /\ length b <> 3 /\ (t_script t = None -> length b <> 4)
  end.
Proof.
  intros [_ _ _ HV HE]. destruct (t_vars t) as [vs|] eqn:Ev.
  - destruct (HV vs eq_refl) as (Hne & H & H4). destruct vs as [|v vs]; [congruence|].
    cbn [olists app]. inversion H as [|? ? (_ & _ & Hl) _]; subst.
    split; [lia|]. split; [lia|]. intros Hs. apply (H4 Hs v vs eq_refl).
  - cbn [olists app]. destruct (t_exts t) as [d|] eqn:Ed.
    + rewrite (ext_list_canon t d Ed). destruct (HE d eq_refl) as (_ & _ & H).
      unfold canon_exts. destruct (isort strleb (dkeys d)) as [|k ks] eqn:Ek; cbn [map flat_map fst snd app]; [exact I|].
      assert (Hk : In k (dkeys d)).
      { apply (in_isort strleb). rewrite Ek. left. reflexivity. }
      unfold dkeys in Hk. apply in_map_iff in Hk. destruct Hk as (kv & <- & Hin).
      rewrite Forall_forall in H. destruct (H _ Hin) as (H1 & _). rewrite H1.
      split; [lia|]. split; [lia|]. intros _. lia.
    + unfold ext_list. rewrite Ed. exact I.
Qed.

(** The stages after the language, on the remaining subtags *)
Lemma parse_stages t l h (r := olist (t_script t) ++ olist (t_region t) ++ olists (t_vars t) ++ ext_list t) :
  well_formed lower upper title t -> t_lang t = Some l ->
  (do (t1, bits) <- parse_script title (set_hideboth (set_lang (newtag None None None None None) (Some l)) h) r;
   let '(t2, bits2) := parse_region upper t1 bits in
   do (t3, bits3) <- parse_late_script t2 bits2;
   Ok (parse_rest lower t3 bits3))
  = Ok (mkTag (Some l) (t_script t) (t_region t) (t_vars t) (option_map canon_exts (t_exts t))
         false false (match t_script t, t_region t with None, None => h | _, _ => false end) []).
Proof.
  intros WF El. pose proof (rest_head t WF) as RH.
  pose proof (fun t0 => parse_rest_wf t0 t WF) as PR.
  destruct WF as [_ HS HR _ _]. subst r.
  set (rest := olists (t_vars t) ++ ext_list t) in *.
  unfold newtag, set_lang, set_hideboth.
  cbn [t_script t_region t_vars t_exts t_hidescript t_hideregion t_hideboth t_desc t_lang isNone].
  destruct (t_script t) as [s|] eqn:Es.
  - destruct (HS s eq_refl) as (H4 & _ & Ht). cbn [olist app]. unfold parse_script. rewrite H4.
    cbn [Nat.eqb bind]. rewrite Ht.
    destruct (t_region t) as [rg|] eqn:Er.
    + destruct (HR rg eq_refl) as (Hl & _ & Hu & _). cbn [olist app]. unfold parse_region.
      rewrite len23_true, Hu by exact Hl.
      assert (E : forall t0, t_script t0 = Some s -> parse_late_script t0 rest = Ok (t0, rest)).
      { intros t0 H0. unfold parse_late_script. destruct rest as [|b rest']; [reflexivity|].
        rewrite H0. cbn [isNone]. rewrite andb_false_r. reflexivity. }
      rewrite E by reflexivity. cbn [bind].
      rewrite PR by reflexivity. reflexivity.
    + cbn [olist app].
      assert (E0 : forall t0, parse_region upper t0 rest = (t0, rest)).
      { intros t0. unfold parse_region. destruct rest as [|b rest']; [reflexivity|].
        destruct RH as (R1 & R2 & _). rewrite len23_false by assumption. reflexivity. }
      rewrite E0.
      assert (E : forall t0, t_script t0 = Some s -> parse_late_script t0 rest = Ok (t0, rest)).
      { intros t0 H0. unfold parse_late_script. destruct rest as [|b rest']; [reflexivity|].
        rewrite H0. cbn [isNone]. rewrite andb_false_r. reflexivity. }
      rewrite E by reflexivity. cbn [bind]. rewrite PR by reflexivity. reflexivity.
  - cbn [olist app].
    assert (E : forall t0, parse_late_script t0 rest = Ok (t0, rest)).
    { intros t0. unfold parse_late_script. destruct rest as [|b rest']; [reflexivity|].
      destruct RH as (_ & _ & R4). rewrite (proj2 (Nat.eqb_neq _ _) (R4 eq_refl)). reflexivity. }
    destruct (t_region t) as [rg|] eqn:Er.
    + destruct (HR rg eq_refl) as (Hl & _ & Hu & H3). cbn [olist app].
      unfold parse_script. rewrite (proj2 (Nat.eqb_neq (length rg) 4)) by lia.
      assert (E3 : (Nat.eqb (length rg) 3 && negb (match rg with c :: _ => is_digit c | [] => false end))%bool = false).
      { destruct (Nat.eqb_spec (length rg) 3) as [E3|]; [|reflexivity].
        destruct (H3 eq_refl E3) as (c & r' & -> & Hd). rewrite Hd. reflexivity. }
      rewrite E3. cbn [bind]. unfold parse_region. rewrite len23_true, Hu by exact Hl.
      rewrite E. cbn [bind]. rewrite PR by reflexivity. reflexivity.
    + cbn [olist app].
      assert (E1 : forall t0, parse_script title t0 rest = Ok (t0, rest)).
      { intros t0. unfold parse_script. destruct rest as [|b rest']; [reflexivity|].
        destruct RH as (_ & R3 & R4). rewrite (proj2 (Nat.eqb_neq _ _) (R4 eq_refl)).
        rewrite (proj2 (Nat.eqb_neq _ _) R3). reflexivity. }
      assert (E0 : forall t0, parse_region upper t0 rest = (t0, rest)).
      { intros t0. unfold parse_region. destruct rest as [|b rest']; [reflexivity|].
        destruct RH as (R1 & R2 & _). rewrite len23_false by assumption. reflexivity. }
      rewrite E1. cbn [bind]. rewrite E0, E. cbn [bind]. rewrite PR by reflexivity. reflexivity.
Qed.

Lemma parse_repr t : well_formed lower upper title t ->
  LangTag lower upper title (tag_repr t) =
    Ok (mkTag (t_lang t) (t_script t) (t_region t) (t_vars t) (option_map canon_exts (t_exts t))
         false false (isNone (t_script t) && isNone (t_region t)) []).
Proof.
  intros WF. pose proof (wf_lang _ _ _ _ WF) as (l & El & Hl & _ & Hlow).
  unfold LangTag, parse, tag_repr.
  rewrite bits_of_join; [|unfold repr_tags; rewrite El; discriminate | apply wf_repr_plain, WF].
  unfold repr_tags. rewrite El. cbn [olist app]. unfold parse_lang at 1.
  rewrite len23_true, Hlow by exact Hl.
  rewrite (parse_stages t l true WF El).
  destruct (t_script t), (t_region t); reflexivity.
Qed.

Lemma repr_canon t hs hr hb ds :
  tag_repr (mkTag (t_lang t) (t_script t) (t_region t) (t_vars t) (option_map canon_exts (t_exts t)) hs hr hb ds)
  = tag_repr t.
Proof.
  unfold tag_repr, repr_tags. cbn [t_lang t_script t_region t_vars]. do 5 f_equal.
  destruct (t_exts t) as [d|] eqn:E; cbn [option_map].
  - rewrite (ext_list_canon t d E). erewrite ext_list_canon; [|reflexivity]. now rewrite canon_canon.
  - unfold ext_list. cbn [t_exts]. now rewrite E.
Qed.

(** Parsing the full form of a well-formed tag succeeds, recovers every component, and writes
    the same full form again. *)
Theorem C14_full_form_round_trip t : well_formed lower upper title t ->
  exists t', LangTag lower upper title (tag_repr t) = Ok t' /\
    t_lang t' = t_lang t /\ t_script t' = t_script t /\ t_region t' = t_region t /\
    t_vars t' = t_vars t /\ same_exts (t_exts t) (t_exts t') /\
    tag_repr t' = tag_repr t /\
    t_hidescript t' = false /\ t_hideregion t' = false /\
    (t_hideboth t' = true <-> t_script t = None /\ t_region t = None).
Proof.
  intros WF. eexists. split; [apply parse_repr, WF|].
  cbn [t_lang t_script t_region t_vars t_exts t_hidescript t_hideregion t_hideboth].
  repeat (split; [reflexivity|]). split.
  - unfold same_exts. destruct (t_exts t) as [d|] eqn:E; cbn [option_map]; [|exact I].
    split; [|intros k; apply dget_canon]. apply canon_NoDup.
    destruct (wf_exts _ _ _ _ WF d E) as (_ & ND & _). exact ND.
  - split; [apply repr_canon|]. repeat (split; [reflexivity|]).
    destruct (t_script t), (t_region t); cbn; (split; [|intros [? ?]; congruence]);
      try discriminate; intros _; split; reflexivity.
Qed.

(** When names and members are already sorted the extensions are recovered exactly. *)
Theorem C14_sorted_exact t d : well_formed lower upper title t -> t_exts t = Some d ->
  StronglySorted (fun a b => strleb a b = true) (map fst d) ->
  Forall (fun kv => StronglySorted (fun a b => strleb a b = true) (snd kv)) d ->
  exists t', LangTag lower upper title (tag_repr t) = Ok t' /\ t_exts t' = Some d.
Proof.
  intros WF E Hk Hm. eexists. split; [apply parse_repr, WF|]. cbn [t_exts]. rewrite E. cbn [option_map].
  f_equal. unfold canon_exts, dkeys. rewrite isort_id by exact Hk. rewrite map_map.
  destruct (wf_exts _ _ _ _ WF d E) as (_ & ND & _).
  rewrite <- (map_id d) at 2. apply map_ext_in. intros [k v] Hin. cbn [fst].
  unfold dgetl. rewrite (dget_NoDup_In streq streq_spec d k v ND Hin).
  rewrite Forall_forall in Hm. rewrite isort_id; [reflexivity | apply (Hm _ Hin)].
Qed.
End C14.

(** Case is normalised: subtags of the right shape, in any case, give the lower case language,
    title case script, upper case region and lower case variants. *)
Theorem C14_case_normalised lower upper title l s r vs :
  2 <= length l <= 3 -> plain l ->
  (forall x, s = Some x -> length x = 4 /\ plain x) ->
  (forall x, r = Some x -> 2 <= length x <= 3 /\ plain x /\
     (s = None -> length x = 3 -> exists c r', x = c :: r' /\ is_digit c = true)) ->
  Forall (fun v => plain v /\ 4 <= length v) vs ->
  (s = None -> forall v vs', vs = v :: vs' -> length v <> 4) ->
  LangTag lower upper title (join [HY] (l :: olist s ++ olist r ++ vs)) =
    Ok (mkTag (Some (lower l)) (option_map title s) (option_map upper r)
              (match vs with [] => None | _ => Some (map lower vs) end) None
              false false (isNone s && isNone r) []).
Proof.
  intros Hl Pl Hs Hr Hv Hv4. unfold LangTag, parse.
  rewrite bits_of_join; [|discriminate|].
  2: { constructor; [exact Pl|]. rewrite !Forall_app. split; [|split].
       - destruct s as [x|]; constructor; [|constructor]. now apply Hs.
       - destruct r as [x|]; constructor; [|constructor]. now apply Hr.
       - eapply Forall_impl; [|exact Hv]. intros a Ha. apply Ha. }
  unfold parse_lang. rewrite len23_true by exact Hl.
  assert (PR : forall t0, t_vars t0 = None -> t_exts t0 = None -> parse_rest lower t0 vs =
     match vs with [] => t0 | _ => set_vars t0 (Some (map lower vs)) end).
  { intros t0 _ _. unfold parse_rest.
    assert (G : forall acc, fold_left (ext_step lower) vs ([], [], acc) = ([], [], acc ++ map lower vs)).
    { clear - Hv. induction Hv as [|v vs (_ & H) HF IH]; intros acc; cbn [fold_left map]; [now rewrite app_nil_r|].
      unfold ext_step at 2. rewrite (proj2 (Nat.eqb_neq _ _)) by lia. rewrite IH, <- app_assoc. reflexivity. }
    rewrite (G []). cbn [app]. destruct vs; reflexivity. }
  assert (RH : match vs with [] => True | b :: _ => len23 b = false /\ length b <> 3 /\ (s = None -> length b <> 4) end).
  { destruct vs as [|b vs]; [exact I|]. inversion Hv as [|? ? (_ & H) _]; subst.
    split; [apply len23_false; lia|]. split; [lia|]. intros Hn. now apply (Hv4 Hn b vs). }
  assert (RG : forall t0, parse_region upper t0 vs = (t0, vs)).
  { intros t0. unfold parse_region. destruct vs as [|b vs']; [reflexivity|]. destruct RH as (-> & _). reflexivity. }
  unfold newtag, set_lang, set_hideboth.
  cbn [t_script t_region t_vars t_exts t_hidescript t_hideregion t_hideboth t_desc t_lang isNone].
  destruct s as [s|].
  - destruct (Hs s eq_refl) as (H4 & _). cbn [olist app option_map]. unfold parse_script. rewrite H4.
    cbn [Nat.eqb bind].
    assert (E : forall t0 x, t_script t0 = Some x -> parse_late_script t0 vs = Ok (t0, vs)).
    { intros t0 x H0. unfold parse_late_script. destruct vs as [|b vs']; [reflexivity|].
      rewrite H0. cbn [isNone]. rewrite andb_false_r. reflexivity. }
    destruct r as [r|]; cbn [olist app option_map].
    + destruct (Hr r eq_refl) as (Hlr & _). unfold parse_region. rewrite len23_true by exact Hlr.
      erewrite E by reflexivity. cbn [bind]. rewrite PR by reflexivity. destruct vs; reflexivity.
    + rewrite RG. erewrite E by reflexivity. cbn [bind]. rewrite PR by reflexivity. destruct vs; reflexivity.
  - cbn [olist app option_map].
    assert (E : forall t0, parse_late_script t0 vs = Ok (t0, vs)).
    { intros t0. unfold parse_late_script. destruct vs as [|b vs']; [reflexivity|].
      destruct RH as (_ & _ & R4). rewrite (proj2 (Nat.eqb_neq _ _) (R4 eq_refl)). reflexivity. }
    destruct r as [r|]; cbn [olist app option_map].
    + destruct (Hr r eq_refl) as (Hlr & _ & H3). unfold parse_script.
      rewrite (proj2 (Nat.eqb_neq (length r) 4)) by lia.
      assert (E3 : (Nat.eqb (length r) 3 && negb (match r with c :: _ => is_digit c | [] => false end))%bool = false).
      { destruct (Nat.eqb_spec (length r) 3) as [E3|]; [|reflexivity].
        destruct (H3 eq_refl E3) as (c & r' & -> & Hd). rewrite Hd. reflexivity. }
      rewrite E3. cbn [bind]. unfold parse_region. rewrite len23_true by exact Hlr.
      rewrite E. cbn [bind]. rewrite PR by reflexivity. destruct vs; reflexivity.
    + assert (E1 : forall t0, parse_script title t0 vs = Ok (t0, vs)).
      { intros t0. unfold parse_script. destruct vs as [|b rest']; [reflexivity|].
        destruct RH as (_ & R3 & R4). rewrite (proj2 (Nat.eqb_neq _ _) (R4 eq_refl)).
        rewrite (proj2 (Nat.eqb_neq _ _) R3). reflexivity. }
      rewrite E1. cbn [bind]. rewrite RG, E. cbn [bind]. rewrite PR by reflexivity. destruct vs; reflexivity.
Qed.

(** ASCII case mappings for the examples *)
Definition up1 (c : N) : N := if (N.leb 97 c && N.leb c 122)%bool then (c - 32)%N else c.
Definition low1 (c : N) : N := if (N.leb 65 c && N.leb c 90)%bool then (c + 32)%N else c.
Definition a_lower := map low1.
Definition a_upper := map up1.
Definition a_title (s : pystr) : pystr :=
  match s with c :: r => up1 c :: map low1 r | [] => [] end.

Definition ex_tag : tag :=
  newtag (Some (lit "sr")) (Some (lit "Latn")) (Some (lit "RS")) (Some [lit "ekavsk"; lit "1994"])
         (Some [(lit "x", [lit "zeta"; lit "alpha"]); (lit "u", [lit "co"; lit "phonebk"])]).
Lemma plain_dec s : (inchars HY s || inchars US s)%bool = false -> plain s.
Proof.
  intros H. apply orb_false_iff in H. destruct H as [H1 H2].
  split; apply inchars_false; assumption.
Qed.
Example C14_case_example :
  LangTag a_lower a_upper a_title (lit "SR_latn-rs_EKAVSK") =
  Ok (mkTag (Some (lit "sr")) (Some (lit "Latn")) (Some (lit "RS")) (Some [lit "ekavsk"]) None false false false []).
Proof. reflexivity. Qed.
Example C14_example : well_formed a_lower a_upper a_title ex_tag /\
  tag_repr ex_tag = lit "sr-Latn-RS-ekavsk-1994-u-co-phonebk-x-alpha-zeta".
Proof.
  split; [|reflexivity]. constructor.
  - exists (lit "sr"). split; [reflexivity|]. split; [cbn; lia|]. split; [apply plain_dec; reflexivity | reflexivity].
  - intros s E. injection E as <-. split; [reflexivity|]. split; [apply plain_dec; reflexivity | reflexivity].
  - intros s E. injection E as <-. split; [cbn; lia|]. split; [apply plain_dec; reflexivity|].
    split; [reflexivity|]. discriminate.
  - intros vs E. injection E as <-. split; [discriminate|]. split; [|discriminate].
    repeat constructor; try apply plain_dec; try reflexivity; cbn; lia.
  - intros d E. injection E as <-. split; [discriminate|]. split.
    + repeat constructor; cbn; intuition discriminate.
    + repeat constructor; try apply plain_dec; try reflexivity; cbn; lia.
Qed.

(** The two side conditions of [well_formed] are needed: a four character variant with no
    script (de-1901 is a registered tag) is read as a script ... *)
Theorem C14_four_character_variant_refuted :
  let t := newtag (Some (lit "de")) None None (Some [lit "1901"]) None in
  exists t', LangTag a_lower a_upper a_title (tag_repr t) = Ok t' /\
    t_vars t' = None /\ t_script t' = Some (lit "1901").
Proof. eexists. split; [reflexivity|]. split; reflexivity. Qed.
(** ... and with a region as well, the region moves into the language. *)
Theorem C14_region_variant_refuted :
  let t := newtag (Some (lit "de")) None (Some (lit "CH")) (Some [lit "1901"]) None in
  exists t', LangTag a_lower a_upper a_title (tag_repr t) = Ok t' /\
    t_lang t' = Some (lit "de-CH") /\ t_region t' = None.
Proof. eexists. split; [reflexivity|]. split; reflexivity. Qed.
(** An extended language followed by a script is not parsed at all: TypeError. *)
Theorem C14_extlang_script_raises :
  LangTag a_lower a_upper a_title (lit "zh-yue-Hant") = Raise TypeError.
Proof. reflexivity. Qed.

(** ** C15 *)
(** the dictionary of extensions has one entry per name, and no subtag contains '-' *)
Record simple_tag (t : tag) : Prop := {
  st_lang : exists l, t_lang t = Some l /\ ~ In HY l;
  st_script : forall s, t_script t = Some s -> ~ In HY s;
  st_region : forall s, t_region t = Some s -> ~ In HY s;
  st_vars : forall vs, t_vars t = Some vs -> forall v, In v vs -> ~ In HY v;
  st_exts : forall d, t_exts t = Some d -> NoDup (map fst d) /\
     forall k ms, In (k, ms) d -> ~ In HY k /\ forall m, In m ms -> ~ In HY m
}.

Theorem C15_len_counts_subtags t : simple_tag t ->
  tag_len t = length (split_on HY (tag_repr t)).
Proof.
  intros [(l & El & Hl) HS HR HV HE].
  assert (HF : Forall (fun s => ~ In HY s) (repr_tags t)).
  { unfold repr_tags. rewrite El. rewrite !Forall_app. split; [|split; [|split; [|split]]].
    - repeat constructor; exact Hl.
    - destruct (t_script t) as [s|]; constructor; [|constructor]. now apply HS.
    - destruct (t_region t) as [s|]; constructor; [|constructor]. now apply HR.
    - destruct (t_vars t) as [vs|]; [|constructor]. apply Forall_forall. intros v Hv. now apply (HV vs).
    - destruct (t_exts t) as [d|] eqn:E.
      + rewrite (ext_list_canon t d E). destruct (HE d eq_refl) as (_ & H).
        apply Forall_forall. intros x Hx. apply in_flat_map in Hx. destruct Hx as ((k & ms) & Hin & Hx).
        unfold canon_exts in Hin. apply in_map_iff in Hin. destruct Hin as (k' & Ek & Hk).
        injection Ek as -> <-. apply in_isort in Hk.
        apply (dget_Some_iff streq streq_spec) in Hk. destruct Hk as [v Hv].
        destruct (H _ _ (dget_In streq streq_spec d k v Hv)) as (H2 & H3).
        cbn [fst snd] in *. unfold dgetl in Hx. rewrite Hv in Hx. destruct Hx as [<-|Hx]; [exact H2|].
        apply in_isort in Hx. exact (H3 _ Hx).
      + unfold ext_list. rewrite E. constructor. }
  unfold tag_repr. rewrite split_join; [|unfold repr_tags; rewrite El; discriminate | exact HF].
  unfold repr_tags, tag_len. rewrite El, !app_length.
  assert (E5 : length (ext_list t) = match t_exts t with
     | Some d => fold_right plus 0 (map (fun v => 1 + length v) (dvalues d)) | None => 0 end).
  { destruct (t_exts t) as [d|] eqn:E.
    - rewrite (ext_list_canon t d E), length_flat_map_pairs. apply canon_sizes. now apply HE.
    - unfold ext_list. now rewrite E. }
  rewrite E5. destruct (t_script t), (t_region t), (t_vars t); cbn [isNone olist olists length]; lia.
Qed.

Example C15_example : simple_tag ex_tag /\ tag_len ex_tag = 11.
Proof.
  split; [|reflexivity]. constructor.
  - exists (lit "sr"). split; [reflexivity|]. apply inchars_false. reflexivity.
  - intros s E. injection E as <-. apply inchars_false. reflexivity.
  - intros s E. injection E as <-. apply inchars_false. reflexivity.
  - intros s E. injection E as <-. intros v [<-|[<-|[]]]; apply inchars_false; reflexivity.
  - intros d E. injection E as <-. split.
    + repeat constructor; cbn; intuition discriminate.
    + intros k ms [E|[E|[]]]; injection E as <- <-; (split; [apply inchars_false; reflexivity|]);
        intros m [<-|[<-|[]]]; apply inchars_false; reflexivity.
Qed.

(** ** C16 *)
(** [a], or [b] where [a] is missing *)
Definition first_set {A} (a b : option A) : option A := match a with Some _ => a | None => b end.
(** the members of extension [k] *)
Definition ext_of (t : tag) (k : pystr) : option (list pystr) :=
  match t_exts t with Some d => dget streq d k | None => None end.
(** two optional components that do not contradict each other *)
Definition compatible {A} (a b : option A) : Prop := a = None \/ b = None \/ a = b.

Lemma ostreq_true a b : ostreq a b = true <-> a = b.
Proof.
  destruct a as [a|], b as [b|]; cbn; try (split; congruence).
  rewrite streq_true. split; [intros ->; reflexivity | congruence].
Qed.
Lemma ostreq_false a b : ostreq a b = false <-> a <> b.
Proof. rewrite <- ostreq_true. destruct (ostreq a b); split; congruence. Qed.

Lemma merge_exts_get e d k :
  dget streq (merge_exts d e) k = first_set (dget streq d k) (dget streq e k).
Proof.
  unfold merge_exts. revert d. induction e as [|[k' v'] e IH]; intros d; cbn [fold_left fst snd].
  - cbn. now destruct (dget streq d k).
  - rewrite IH. unfold dmem. destruct (dget streq d k') as [w|] eqn:E.
    + cbn [dget]. destruct (streq_spec k k') as [->|Hn]; [rewrite E; reflexivity | reflexivity].
    + rewrite (dget_dset streq streq_spec). cbn [dget].
      destruct (streq_spec k k') as [->|Hn]; [rewrite E; reflexivity | reflexivity].
Qed.

Lemma merge_rest_spec s tg (r := merge_rest s tg) :
  t_lang r = t_lang s /\ t_script r = t_script s /\ t_region r = t_region s /\
  t_vars r = first_set (t_vars s) (t_vars tg) /\
  (forall k, ext_of r k = first_set (ext_of s k) (ext_of tg k)) /\
  t_desc r = match t_desc s with [] => t_desc tg | d => d end /\
  t_hidescript r = t_hidescript s /\
  t_hideregion r = (t_hideregion s || (ostreq (t_region s) (t_region tg) && t_hideregion tg))%bool /\
  t_hideboth r = (t_hideboth s || t_hideboth tg)%bool.
Proof.
  subst r. unfold merge_rest, ext_of.
  destruct s as [l1 s1 r1 v1 e1 hs1 hr1 hb1 d1], tg as [l2 s2 r2 v2 e2 hs2 hr2 hb2 d2].
  cbn [t_lang t_script t_region t_vars t_exts t_hidescript t_hideregion t_hideboth t_desc].
  destruct (ostreq r1 r2); destruct hr1, hb1; cbn [negb andb orb set_hideregion set_hideboth
     t_lang t_script t_region t_vars t_exts t_hidescript t_hideregion t_hideboth t_desc];
  destruct v1, v2; destruct e1, e2;
  destruct d1, d2;
  cbn [negb andb orb set_hideregion set_hideboth set_vars set_exts set_desc
     t_lang t_script t_region t_vars t_exts t_hidescript t_hideregion t_hideboth t_desc first_set];
  repeat match goal with |- _ /\ _ => split end; try reflexivity; intros k;
  rewrite ?merge_exts_get; cbn [dget first_set]; try reflexivity;
  destruct (dget streq _ k); reflexivity.
Qed.

Lemma ostreq_none a : ostreq None a = isNone a.
Proof. destruct a; reflexivity. Qed.
Lemma ostreq_refl a : ostreq a a = true.
Proof. now apply ostreq_true. Qed.

(** the outcome, completely *)
Lemma merge_cases self tg :
  let '(r, ok) := merge_equivalent self tg in
  if ok then
    compatible (t_script self) (t_script tg) /\ compatible (t_region self) (t_region tg) /\
    exists s, r = merge_rest s tg /\ t_lang s = t_lang self /\
      t_script s = first_set (t_script self) (t_script tg) /\
      t_region s = first_set (t_region self) (t_region tg) /\
      t_vars s = t_vars self /\ t_exts s = t_exts self /\ t_desc s = t_desc self /\
      t_hideregion s = t_hideregion self /\ t_hideboth s = t_hideboth self
  else
    (~ compatible (t_script self) (t_script tg) /\ r = self) \/
    (~ compatible (t_region self) (t_region tg) /\ exists h, r = set_hidescript self h).
Proof.
  Ltac allrefl := repeat match goal with |- _ /\ _ => split end; try reflexivity; try assumption.
  unfold merge_equivalent, compatible.
  destruct self as [l1 s1 r1 v1 e1 hs1 hr1 hb1 d1], tg as [l2 s2 r2 v2 e2 hs2 hr2 hb2 d2].
  cbn [t_lang t_script t_region t_vars t_exts t_hidescript t_hideregion t_hideboth t_desc
       set_script].
  set (tg := mkTag l2 s2 r2 v2 e2 hs2 hr2 hb2 d2).
  destruct (isNone s1 && negb (ostreq s1 s2))%bool eqn:A.
  - apply andb_true_iff in A. destruct A as [A1 A2]. destruct s1; [discriminate|]. clear A1.
    destruct s2 as [s2|]; [|discriminate A2]. clear A2.
    cbn [set_script t_script t_hidescript isNone]. rewrite ostreq_refl. cbn [andb].
    destruct (negb hs1) eqn:Eh; cbn [set_script set_hidescript t_lang t_script t_region t_vars t_exts t_hidescript t_hideregion t_hideboth t_desc];
    (destruct (isNone r1 && negb (ostreq r1 r2))%bool eqn:B;
     [ apply andb_true_iff in B; destruct B as [B1 B2]; destruct r1; [discriminate|];
       split; [tauto|]; split; [tauto|]; eexists; allrefl |]);
    (destruct (negb (isNone r2) && negb (ostreq r2 r1))%bool eqn:C;
     [ apply andb_true_iff in C; destruct C as [C1 C2]; right;
       apply negb_true_iff in C2; apply ostreq_false in C2;
       destruct r1 as [r1|]; [|cbn in B; destruct r2; discriminate];
       destruct r2; [|discriminate]; split; [intros [?|[?|?]]; congruence|]; eexists; reflexivity |]);
    (assert (Hr : r2 = None \/ r1 = r2) by
      (destruct r1 as [r1|], r2 as [r2|]; [right | left; reflexivity | discriminate B | left; reflexivity];
       cbn in C; apply negb_false_iff, streq_true in C; congruence));
    (assert (Hf : r1 = first_set r1 r2) by (destruct Hr as [->| ->]; [destruct r1; reflexivity | destruct r2; reflexivity]));
    destruct (isNone r2); (split; [tauto|]; split; [tauto|]; eexists;
      allrefl).
  - destruct (negb (isNone s2) && negb (ostreq s1 s2))%bool eqn:A'.
    { apply andb_true_iff in A'. destruct A' as [A1 A2]. left. split; [|reflexivity].
      destruct s2; [|discriminate]. apply negb_true_iff, ostreq_false in A2.
      destruct s1; [intros [?|[?|?]]; congruence | discriminate A]. }
    assert (Hs : s2 = None \/ s1 = s2).
    { destruct s1 as [s1|], s2 as [s2|]; [right | left; reflexivity | discriminate A | left; reflexivity].
      cbn in A'. apply negb_false_iff, streq_true in A'. congruence. }
    assert (Hfs : s1 = first_set s1 s2) by (destruct Hs as [->| ->]; [destruct s1; reflexivity | destruct s2; reflexivity]).
    cbn [t_script t_hidescript].
    destruct (ostreq s1 s2 && negb hs1)%bool eqn:Eh; [|destruct (isNone s2) eqn:En];
    cbn [set_script set_hidescript t_lang t_script t_region t_vars t_exts t_hidescript t_hideregion t_hideboth t_desc];
    (destruct (isNone r1 && negb (ostreq r1 r2))%bool eqn:B;
     [ apply andb_true_iff in B; destruct B as [B1 B2]; destruct r1; [discriminate|];
       split; [tauto|]; split; [tauto|]; eexists; allrefl |]);
    (destruct (negb (isNone r2) && negb (ostreq r2 r1))%bool eqn:C;
     [ apply andb_true_iff in C; destruct C as [C1 C2]; right;
       apply negb_true_iff in C2; apply ostreq_false in C2;
       destruct r1 as [r1|]; [|cbn in B; destruct r2; discriminate];
       destruct r2; [|discriminate]; split; [intros [?|[?|?]]; congruence|]; eexists; reflexivity |]);
    (assert (Hr : r2 = None \/ r1 = r2) by
      (destruct r1 as [r1|], r2 as [r2|]; [right | left; reflexivity | discriminate B | left; reflexivity];
       cbn in C; apply negb_false_iff, streq_true in C; congruence));
    (assert (Hf : r1 = first_set r1 r2) by (destruct Hr as [->| ->]; [destruct r1; reflexivity | destruct r2; reflexivity]));
    (destruct (isNone r2) eqn:Er; (split; [tauto|]; split; [tauto|]); eexists;
      allrefl).
Qed.

(** On True every component that was set is kept and the missing ones come from [tg]. *)
Theorem C16_merge_true self tg r :
  merge_equivalent self tg = (r, true) ->
  t_lang r = t_lang self /\
  t_script r = first_set (t_script self) (t_script tg) /\
  t_region r = first_set (t_region self) (t_region tg) /\
  t_vars r = first_set (t_vars self) (t_vars tg) /\
  (forall k, ext_of r k = first_set (ext_of self k) (ext_of tg k)) /\
  t_desc r = match t_desc self with [] => t_desc tg | d => d end.
Proof.
  intros H. pose proof (merge_cases self tg) as M. rewrite H in M.
  destruct M as (_ & _ & s & -> & E1 & E2 & E3 & E4 & E5 & E6 & _).
  destruct (merge_rest_spec s tg) as (F1 & F2 & F3 & F4 & F5 & F6 & _).
  split; [congruence|]. split; [congruence|]. split; [congruence|]. split; [congruence|].
  split; [|now rewrite F6, E6]. intros k. rewrite F5. unfold ext_of. now rewrite E5.
Qed.

(** On False nothing but [hidescript] changes. *)
Theorem C16_merge_false self tg r :
  merge_equivalent self tg = (r, false) ->
  t_lang r = t_lang self /\ t_script r = t_script self /\ t_region r = t_region self /\
  t_vars r = t_vars self /\ t_exts r = t_exts self /\ t_desc r = t_desc self /\
  t_hideregion r = t_hideregion self /\ t_hideboth r = t_hideboth self.
Proof.
  intros H. pose proof (merge_cases self tg) as M. rewrite H in M.
  destruct M as [(_ & ->)|(_ & h & ->)]; repeat split.
Qed.

(** It succeeds exactly when neither script nor region contradict each other. *)
Theorem C16_merge_iff self tg :
  snd (merge_equivalent self tg) = true <->
  compatible (t_script self) (t_script tg) /\ compatible (t_region self) (t_region tg).
Proof.
  pose proof (merge_cases self tg) as M. destruct (merge_equivalent self tg) as [r ok]. cbn [snd].
  destruct ok.
  - split; [intros _ | reflexivity]. split; apply M.
  - split; [discriminate|]. intros [H1 H2]. destruct M as [(M & _)|(M & _)]; contradiction.
Qed.

(** Merging never un-hides a script or region. *)
Theorem C16_hidden_stays self tg r :
  merge_equivalent self tg = (r, true) ->
  (t_hideregion self = true -> t_hideregion r = true) /\
  (t_hideboth self = true -> t_hideboth r = true).
Proof.
  intros H. pose proof (merge_cases self tg) as M. rewrite H in M.
  destruct M as (_ & _ & s & -> & _ & _ & _ & _ & _ & _ & E1 & E2).
  destruct (merge_rest_spec s tg) as (_ & _ & _ & _ & _ & _ & _ & F1 & F2).
  rewrite F1, F2, E1, E2. split; intros ->; reflexivity.
Qed.

(** The flags after a successful merge, exactly. The script becomes hidden also when [tg] has no
    region (the code's "yes really script"). *)
Local Arguments merge_rest : simpl never.
Local Arguments streq : simpl never.
Theorem C16_hide_flags self tg r :
  merge_equivalent self tg = (r, true) ->
  (t_hidescript r = true <->
     t_hidescript self = true \/ t_hidescript tg = true /\ (t_script tg <> None \/ t_script self = None) \/
     (t_script tg = None /\ t_script self <> None) \/ t_region tg = None) /\
  (t_hideregion r = true <->
     t_hideregion self = true \/ t_hideregion tg = true /\ (t_region tg <> None \/ t_region self = None)) /\
  (t_hideboth r = true <-> t_hideboth self = true \/ t_hideboth tg = true).
Proof.
  unfold merge_equivalent.
  destruct self as [l1 s1 r1 v1 e1 hs1 hr1 hb1 d1], tg as [l2 s2 r2 v2 e2 hs2 hr2 hb2 d2].
  set (tg := mkTag l2 s2 r2 v2 e2 hs2 hr2 hb2 d2).
  assert (M : forall s (P : Prop) (Q : Prop), (t_hidescript s = true <-> P) -> t_hideregion s = hr1 -> t_hideboth s = hb1 ->
    (t_region s = r2 <-> Q) ->
    (t_hidescript (merge_rest s tg) = true <-> P) /\
    (t_hideregion (merge_rest s tg) = true <-> hr1 = true \/ hr2 = true /\ Q) /\
    (t_hideboth (merge_rest s tg) = true <-> hb1 = true \/ hb2 = true)).
  { intros s P Q H1 H2 H3 H4. destruct (merge_rest_spec s tg) as (_ & _ & _ & _ & _ & _ & F1 & F2 & F3).
    rewrite F1, F2, F3, H2, H3. split; [exact H1|]. cbn [tg t_region t_hideregion t_hideboth].
    rewrite !orb_true_iff, andb_true_iff, ostreq_true, H4. tauto. }
  subst tg.
  destruct s1 as [s1|], s2 as [s2|]; cbn;
    try (destruct (streq_spec s1 s2) as [Es|Es]; [subst s2|]; cbn; [|discriminate]);
    rewrite ?streq_refl; destruct hs1; cbn;
    destruct r1 as [r1|], r2 as [r2|]; cbn; rewrite ?streq_refl; cbn;
    try (destruct (streq_spec r2 r1) as [Er|Er]; [subst r2|]; cbn; [|discriminate]);
    intros H; injection H as <-; apply M; cbn;
    intuition congruence.
Qed.

Example C16_example :
  let a := newtag (Some (lit "sr")) (Some (lit "Latn")) None None (Some [(lit "u", [lit "co"])]) in
  let b := newtag (Some (lit "sr")) None (Some (lit "RS")) (Some [lit "ekavsk"])
             (Some [(lit "u", [lit "nu"]); (lit "x", [lit "foo"])]) in
  exists r, merge_equivalent a b = (r, true) /\
    tag_repr r = lit "sr-Latn-RS-ekavsk-u-co-x-foo".
Proof. eexists. split; reflexivity. Qed.

(** A failed merge may still set [hidescript]: "returns False" is not "unchanged". *)
Theorem C16_failed_merge_changes_hidescript :
  exists self tg r, merge_equivalent self tg = (r, false) /\ t_hidescript r <> t_hidescript self.
Proof.
  exists (newtag (Some (lit "sr")) (Some (lit "Latn")) (Some (lit "RS")) None None),
         (newtag (Some (lit "sr")) None (Some (lit "ME")) None None).
  eexists. split; [reflexivity|]. cbn. discriminate.
Qed.

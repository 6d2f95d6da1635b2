(** C14, C48: private use languages, scripts after regions, and when tags match. *)
From Coq Require Import String.
From Verif Require Import Py PyFacts M_LangTags P_LangTags T_LangTags T_LangTags2.
Local Open Scope list_scope.
Local Open Scope nat_scope.

Definition X : pystr := [120%N].
Lemma take_priv_all ps : forall acc rest, Forall (fun p => 2 <= length p <= 3) ps ->
  match rest with [] => True | b :: _ => len23 b = false end ->
  take_priv acc (ps ++ rest) = (acc ++ concat (map (fun p => p ++ [HY]) ps), rest).
Proof.
  induction ps as [|p ps IH]; intros acc rest F R.
  - cbn [app map concat]. rewrite app_nil_r. destruct rest as [|b rest]; [reflexivity|]. cbn [take_priv]. now rewrite R.
  - inversion F as [|? ? H F']; subst. cbn [app take_priv map concat]. rewrite (len23_true p H), (IH _ _ F' R), <- !app_assoc. reflexivity.
Qed.
Lemma removelast_priv ps : forall a, removelast (a ++ [HY] ++ concat (map (fun p => p ++ [HY]) ps)) = join [HY] (a :: ps).
Proof.
  induction ps as [|p ps IH]; intro a.
  - cbn [map concat]. rewrite app_nil_r. apply removelast_last.
  - cbn [map concat]. specialize (IH (a ++ [HY] ++ p)).
    replace (a ++ [HY] ++ (p ++ [HY]) ++ concat (map (fun p => p ++ [HY]) ps)) with
      ((a ++ [HY] ++ p) ++ [HY] ++ concat (map (fun p => p ++ [HY]) ps)) by (rewrite <- !app_assoc; reflexivity).
    rewrite IH. cbn [join]. destruct ps; rewrite <- ?app_assoc; reflexivity.
Qed.
(** A tag that begins with x: all subtags of two or three letters that follow are the language, as they are written, up to
    a script; so a region is only read after a script. *)
Theorem C14_private_use : forall lower upper title ps s r,
  Forall (fun p => plain p /\ 2 <= length p <= 3) ps ->
  (forall x, s = Some x -> plain x /\ length x = 4) ->
  (forall x, r = Some x -> plain x /\ 2 <= length x <= 3) ->
  (ps = [] -> s <> None) -> (s = None -> r = None) ->
  LangTag lower upper title (join [HY] (X :: ps ++ olist s ++ olist r)) =
    Ok (mkTag (Some (join [HY] (X :: ps))) (option_map title s) (option_map upper r) None None false false (isNone s) []).
Proof.
  intros lower upper title ps s r Hp Hs Hr N1 N2. unfold LangTag, parse.
  rewrite bits_of_join; [|discriminate|].
  2:{ constructor; [split; cbn; intuition discriminate|]. rewrite !Forall_app. split; [|split].
      - eapply Forall_impl; [|exact Hp]. now intros a [A _].
      - destruct s as [x|]; constructor; [|constructor]. now apply Hs.
      - destruct r as [x|]; constructor; [|constructor]. now apply Hr. }
  unfold parse_lang. change (len23 X) with false. cbn [andb].
  assert (negb (match ps ++ olist s ++ olist r with [] => true | _ => false end) = true) as NE.
  { destruct ps as [|p ps]; [|reflexivity]. destruct s; [reflexivity|]. now destruct (N1 eq_refl). }
  rewrite NE. change (streq X [120%N]) with true. cbn [andb].
  rewrite take_priv_all.
  2:{ eapply Forall_impl; [|exact Hp]. now intros a [_ A]. }
  2:{ destruct s as [x|]; cbn [olist app].
      - destruct (Hs x eq_refl) as [_ L]. apply len23_false; lia.
      - now rewrite (N2 eq_refl). }
  change ([120%N; HY] ++ concat (map (fun p => p ++ [HY]) ps)) with (X ++ [HY] ++ concat (map (fun p => p ++ [HY]) ps)).
  rewrite removelast_priv. unfold newtag, set_lang. cbn [t_script t_region t_vars t_exts t_hidescript t_hideregion t_hideboth t_desc t_lang isNone andb].
  destruct s as [x|]; cbn [olist app option_map isNone].
  - destruct (Hs x eq_refl) as [_ L]. unfold parse_script. rewrite L. cbn [Nat.eqb bind].
    destruct r as [y|]; cbn [olist option_map parse_region].
    + destruct (Hr y eq_refl) as [_ Ly]. rewrite (len23_true y Ly). reflexivity.
    + reflexivity.
  - rewrite (N2 eq_refl). reflexivity.
Qed.
Example C14_private_ex : LangTag a_lower a_upper a_title (lit "x-kAL-aba-latn-us") =
    Ok (mkTag (Some (lit "x-kAL-aba")) (Some (lit "Latn")) (Some (lit "US")) None None false false false [])
  /\ LangTag a_lower a_upper a_title (lit "x-kal-US") = Ok (mkTag (Some (lit "x-kal-US")) None None None None false false true []).
Proof. split; reflexivity. Qed.

(** A script after what was read as a region: the region becomes a part of the language; script and region are then kept as they
    are written. *)
Theorem C14_late_script : forall lower upper title l g s r,
  plain l -> 2 <= length l <= 3 -> plain g -> length g = 2 \/ (length g = 3 /\ exists c g', g = c :: g' /\ is_digit c = true) ->
  plain s -> length s = 4 -> (forall x, r = Some x -> plain x /\ 2 <= length x <= 3) ->
  LangTag lower upper title (join [HY] (l :: g :: s :: olist r)) =
    Ok (mkTag (Some (lower l ++ [HY] ++ upper g)) (Some s) r None None false false false []).
Proof.
  intros lower upper title l g s r Pl Ll Pg Lg Ps Ls Hr. unfold LangTag, parse.
  rewrite bits_of_join; [|discriminate|].
  2:{ repeat (constructor; [assumption|]). destruct r as [x|]; constructor; [|constructor]. now apply Hr. }
  unfold parse_lang. rewrite (len23_true l Ll). unfold parse_script.
  rewrite (proj2 (Nat.eqb_neq (length g) 4)) by (destruct Lg as [E|[E _]]; lia).
  assert ((Nat.eqb (length g) 3 && negb (match g with c :: _ => is_digit c | [] => false end))%bool = false) as ->.
  { destruct Lg as [E|[E (c & g' & -> & D)]]; [now rewrite E|]. now rewrite D, andb_false_r. }
  cbn [bind]. unfold parse_region. rewrite (len23_true g) by (destruct Lg as [E|[E _]]; lia).
  unfold parse_late_script. rewrite Ls. cbn [Nat.eqb andb].
  cbn [set_region t_region].
  destruct r as [x|]; cbn [olist].
  - destruct (Hr x eq_refl) as [_ Lx]. rewrite (len23_true x Lx). reflexivity.
  - reflexivity.
Qed.
Example C14_late_ex : LangTag a_lower a_upper a_title (lit "DE-ch-latn-at") =
    Ok (mkTag (Some (lit "de-CH")) (Some (lit "latn")) (Some (lit "at")) None None false false false []).
Proof. reflexivity. Qed.

(** A tag matches another one exactly if the languages, the variants in their order and the extensions are the same, and script
    and region are the same or hidden in the first and missing in the second. *)
Definition same_exts (a b : option (list (pystr * list pystr))) : Prop :=
  match a, b with
  | None, None => True
  | Some x, Some y => forall k, dget streq x k = dget streq y k
  | _, _ => False
  end.
Lemma ostreq_spec a b : ostreq a b = true <-> a = b.
Proof.
  destruct a as [a|], b as [b|]; cbn; try (split; congruence). destruct (streq_spec a b); split; congruence.
Qed.
Lemma ovars_spec a b : ovars_eqb a b = true <-> a = b.
Proof.
  destruct a as [a|], b as [b|]; cbn; try (split; congruence). pose proof (lcmp_eq strcmp strcmp_eq a b) as H.
  destruct (lcmp strcmp a b); split; try congruence; intro E; try (f_equal; now apply H); try (injection E as E; apply H in E; discriminate).
Qed.
Lemma dict_spec a b : NoDup (map fst a) -> NoDup (map fst b) -> dict_eqb a b = true <-> forall k, dget streq a k = dget streq b k.
Proof.
  intros Na Nb. unfold dict_eqb. rewrite andb_true_iff, Nat.eqb_eq, forallb_forall. split.
  - intros [L F] k.
    assert (forall k v, In (k, v) a -> dget streq b k = Some v) as Fa.
    { intros k0 v I. specialize (F _ I). cbn [fst snd] in F. destruct (dget streq b k0) as [v'|]; [|discriminate]. apply ovars_spec in F. congruence. }
    assert (incl (map fst a) (map fst b)) as I1.
    { intros x Hx. apply in_map_iff in Hx as ([k0 v] & <- & I). apply Fa in I. apply (dget_In _ streq_spec) in I. now apply (in_map fst) in I. }
    assert (incl (map fst b) (map fst a)) as I2.
    { apply NoDup_length_incl; [exact Na|rewrite !map_length; lia|exact I1]. }
    destruct (dget streq a k) as [v|] eqn:E.
    + symmetry. apply Fa, (dget_In _ streq_spec), E.
    + destruct (dget streq b k) as [v|] eqn:E2; [|reflexivity]. exfalso.
      apply (dget_In _ streq_spec) in E2. apply (in_map fst), I2 in E2. apply in_map_iff in E2 as ([k0 v0] & Ek & I). cbn in Ek. subst k0.
      rewrite (dget_NoDup_In _ streq_spec _ _ _ Na I) in E. discriminate.
  - intro H. assert (forall x y, NoDup (map fst x) -> (forall k, dget streq x k = dget streq y k) -> incl (map (@fst pystr (list pystr)) x) (map fst y)) as G.
    { intros x y Nx E k Hk. apply in_map_iff in Hk as ([k0 v] & <- & I). pose proof (dget_NoDup_In _ streq_spec _ _ _ Nx I) as D.
      rewrite E in D. apply (dget_In _ streq_spec) in D. now apply (in_map fst) in D. }
    split.
    + pose proof (NoDup_incl_length Na (G a b Na H)) as L1. pose proof (NoDup_incl_length Nb (G b a Nb (fun k => eq_sym (H k)))) as L2.
      rewrite !map_length in *. lia.
    + intros [k v] I. cbn [fst snd]. rewrite <- H, (dget_NoDup_In _ streq_spec _ _ _ Na I). now apply ovars_spec.
Qed.
Theorem C48_matches : forall t t',
  (forall d, t_exts t = Some d -> NoDup (map fst d)) -> (forall d, t_exts t' = Some d -> NoDup (map fst d)) ->
  matches t t' = true <->
    t_lang t' = t_lang t
    /\ (t_script t' = t_script t \/ (t_hidescript t = true /\ t_script t' = None))
    /\ (t_region t' = t_region t \/ (t_hideregion t = true /\ t_region t' = None))
    /\ t_vars t' = t_vars t /\ same_exts (t_exts t) (t_exts t').
Proof.
  intros t t' N N'.
  assert (oexts_eqb (t_exts t) (t_exts t') = true <-> same_exts (t_exts t) (t_exts t')) as HE.
  { destruct (t_exts t) as [a|], (t_exts t') as [b|]; cbn; try (split; [discriminate|contradiction]); [|tauto].
    apply dict_spec; [now apply N|now apply N']. }
  assert (forall (h : bool) (a b : option pystr), negb (ostreq a b) && negb (h && isNone b) = false <-> b = a \/ (h = true /\ b = None)) as HO.
  { intros h a b. destruct (ostreq a b) eqn:E; cbn [negb andb].
    - apply ostreq_spec in E. split; auto.
    - rewrite negb_false_iff, andb_true_iff. split.
      + intros [-> I]. right. split; [reflexivity|]. destruct b; [discriminate|reflexivity].
      + intros [->|[-> ->]]; [|auto]. rewrite (proj2 (ostreq_spec a a) eq_refl) in E. discriminate. }
  unfold matches. rewrite <- HE.
  destruct (ostreq (t_lang t) (t_lang t')) eqn:EL; cbn [negb].
  2:{ split; [discriminate|]. intros [E _]. rewrite E, (proj2 (ostreq_spec _ _) eq_refl) in EL. discriminate. }
  apply ostreq_spec in EL. specialize (HO (t_hidescript t) (t_script t) (t_script t')) as HS. specialize (HO (t_hideregion t) (t_region t) (t_region t')) as HR.
  destruct (negb (ostreq (t_script t) (t_script t')) && negb (t_hidescript t && isNone (t_script t')))%bool.
  { split; [discriminate|]. intros (_ & S & _). apply HS in S. discriminate. }
  destruct (negb (ostreq (t_region t) (t_region t')) && negb (t_hideregion t && isNone (t_region t')))%bool.
  { split; [discriminate|]. intros (_ & _ & R & _). apply HR in R. discriminate. }
  destruct (ovars_eqb (t_vars t) (t_vars t')) eqn:EV; cbn [negb].
  2:{ split; [discriminate|]. intros (_ & _ & _ & V & _). rewrite V, (proj2 (ovars_spec _ _) eq_refl) in EV. discriminate. }
  apply ovars_spec in EV. destruct (oexts_eqb (t_exts t) (t_exts t')); cbn [negb]; split; try discriminate; try tauto.
  intros _. split; [congruence|]. split; [now apply HS|]. split; [now apply HR|]. split; [congruence|reflexivity].
Qed.
Example C48_matches_ex : let t := set_hidescript (newtag (Some (lit "en")) (Some (lit "Latn")) (Some (lit "US")) None (Some [(lit "u", [lit "co"])])) true in
  matches t (newtag (Some (lit "en")) None (Some (lit "US")) None (Some [(lit "u", [lit "co"])])) = true
  /\ matches t (newtag (Some (lit "en")) None (Some (lit "US")) None None) = false.
Proof. split; reflexivity. Qed.

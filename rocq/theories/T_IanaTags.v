(** C70: the tags and variants that are read from the IANA registry
    (lib/sldr/langtags_full.py readIana). *)
From Coq Require Import String Relations.
From Verif Require Import Py PyFacts M_LangTags P_LangTags P_Collation P_Collation2 T_LangTags T_LangTags2
  M_Collation T_FlatColl M_IanaTags.
Local Open Scope list_scope.
Local Open Scope nat_scope.

(** ** Specification *)
(** what a line says under a key: "key: value", white space at both ends aside *)
Definition says (ws : N -> bool) (key l : pystr) : option pystr :=
  strip_prefix (key ++ lit ": ") (strip ws l).
Definition values (ws : N -> bool) (key : pystr) (ls : list pystr) : list pystr :=
  flat_map (fun l => match says ws key l with Some v => [v] | None => [] end) ls.

(** A record of the registry: the lines "Type: m" and, unless the record has a "Tag:" instead,
    "Subtag: s", and other lines *)
Record irec := mkRec { rc_type : pystr; rc_sub : option pystr; rc_rest : list pystr }.
Definition rec_lines (ws : N -> bool) (rc : irec) (ls : list pystr) : Prop :=
  values ws (lit "Type") (rc_rest rc) = [] /\ values ws (lit "Subtag") (rc_rest rc) = [] /\
  exists lt, says ws (lit "Type") lt = Some (rc_type rc) /\
  match rc_sub rc with
  | None => ls = lt :: rc_rest rc
  | Some s => exists l2, says ws (lit "Subtag") l2 = Some s /\ ls = lt :: l2 :: rc_rest rc
  end.

(** the records that name a language *)
Definition names_language (rc : irec) : Prop :=
  In (rc_type rc) [lit "language"; lit "extlang"; lit "grandfathered"; lit "redundant"] /\ rc_sub rc <> None.
Definition is_variant (rc : irec) : Prop := rc_type rc = lit "variant".

(** the tag of a language: its subtag, after its prefix if it is an extended language; the
    script that it suppresses, hidden; its descriptions *)
Definition rec_tag (ws : N -> bool) (rc : irec) (s : pystr) : tag :=
  mkTag (Some (fold_left (fun l p => p ++ lit "-" ++ l)
                 (if streq (rc_type rc) (lit "extlang") then values ws (lit "Prefix") (rc_rest rc) else []) s))
        (hd_error (rev (values ws (lit "Suppress-Script") (rc_rest rc)))) None None None
        (match values ws (lit "Suppress-Script") (rc_rest rc) with [] => false | _ => true end) false true
        (map (strip ws) (values ws (lit "Description") (rc_rest rc))).
Definition rec_tags (ws : N -> bool) (rc : irec) : list tag :=
  match rc_sub rc with
  | Some s => if existsb (streq (rc_type rc)) [lit "language"; lit "extlang"; lit "grandfathered"; lit "redundant"]
              then [rec_tag ws rc s] else []
  | None => []
  end.
(** the variants with their prefixes, one pair for each *)
Definition rec_prefixes (ws : N -> bool) (rc : irec) : list (pystr * pystr) :=
  match rc_sub rc with
  | Some s => if streq (rc_type rc) (lit "variant")
              then map (fun p => (strip ws p, s)) (values ws (lit "Prefix") (rc_rest rc)) else []
  | None => []
  end.
(** the variants without a prefix *)
Definition rec_global (ws : N -> bool) (rc : irec) : list pystr :=
  match rc_sub rc with
  | Some s => if streq (rc_type rc) (lit "variant")
              then match values ws (lit "Prefix") (rc_rest rc) with [] => [s] | _ => [] end else []
  | None => []
  end.

(** what the code needs: a variant has a subtag and suppresses no script *)
Definition sound (ws : N -> bool) (rc : irec) : Prop :=
  is_variant rc -> rc_sub rc <> None /\ values ws (lit "Suppress-Script") (rc_rest rc) = [].
(** the lines before the first record say nothing *)
Definition quiet (ws : N -> bool) (l : pystr) : Prop :=
  forall k, In k [lit "Type"; lit "Subtag"; lit "Deprecated"; lit "Preferred-Value"; lit "Description"] -> says ws k l = None.
(** the first variant has a prefix *)
Definition first_has_prefix (ws : N -> bool) (rcs : list irec) : Prop :=
  forall before rc after, rcs = before ++ rc :: after -> is_variant rc ->
    (forall r, In r before -> ~ is_variant r) -> values ws (lit "Prefix") (rc_rest rc) <> [].

(** [add] for each tag in turn, each a new object *)
Definition add_tags (order : list pystr -> list pystr) (r : registry) (n : nat) (ts : list tag) : registry * nat :=
  fold_left (fun rn t => (fst (add order (mkReg (r_map (fst rn)) (upd (r_obj (fst rn)) (snd rn) t)) (snd rn)), S (snd rn)))
    ts (r, n).

(** ** Lines *)
Section Iana.
Variable ws : N -> bool.
Variable order : list pystr -> list pystr.
Notation line := (iana_line ws order).
Notation lines := (iana_lines ws order).

Lemma says_excl p q s a b : strip_prefix p s = Some a -> strip_prefix q s = Some b ->
  strip_prefix p q <> None \/ strip_prefix q p <> None.
Proof.
  revert q s. induction p as [|x p IH]; intros q s H1 H2; [left; cbn; discriminate|].
  destruct q as [|y q]; [right; cbn; discriminate|]. destruct s as [|z s]; [discriminate|].
  cbn [strip_prefix] in *. destruct (N.eqb_spec x z) as [->|]; [|discriminate].
  destruct (N.eqb_spec y z) as [->|]; [|discriminate]. rewrite N.eqb_refl. eapply IH; eassumption.
Qed.

Definition set_tag (st : istate) (t : option (option tag)) : istate := mkIS (is_mode st) (is_cur st) t (is_base st).

Lemma says_Type l : strip_prefix (lit "Type: ") (strip ws l) = says ws (lit "Type") l.
Proof. reflexivity. Qed.
Lemma says_Subtag l : strip_prefix (lit "Subtag: ") (strip ws l) = says ws (lit "Subtag") l.
Proof. reflexivity. Qed.
Lemma says_Supp l : strip_prefix (lit "Suppress-Script: ") (strip ws l) = says ws (lit "Suppress-Script") l.
Proof. reflexivity. Qed.
Lemma says_Prefix l : strip_prefix (lit "Prefix: ") (strip ws l) = says ws (lit "Prefix") l.
Proof. reflexivity. Qed.
Lemma says_Desc l : strip_prefix (lit "Description: ") (strip ws l) = says ws (lit "Description") l.
Proof. reflexivity. Qed.

Lemma starts_none k l : startswith (k ++ lit ": ") (strip ws l) = match says ws k l with Some _ => true | None => false end.
Proof. reflexivity. Qed.

Ltac excl H1 H2 := exfalso; destruct (says_excl _ _ _ _ _ H1 H2) as [X|X]; apply X; reflexivity.

(** the rest of a record with a tag *)
Definition tag_line (m : pystr) (t : tag) (l : pystr) : tag :=
  match says ws (lit "Suppress-Script") l with
  | Some sc => set_hidescript (set_script t (Some sc)) true
  | None =>
  match says ws (lit "Description") l with
  | Some d => set_desc t (t_desc t ++ [strip ws d])
  | None =>
  match says ws (lit "Prefix") l, t_lang t with
  | Some p, Some lg => if streq m extlang then set_lang t (Some (p ++ [HY] ++ lg)) else t
  | _, _ => t
  end end end.

Lemma iana_tag_line m s t b l : streq m variant = false -> t_lang t <> None ->
  says ws (lit "Type") l = None -> says ws (lit "Subtag") l = None ->
  line (mkIS (Some m) (Some s) (Some (Some t)) b) l = Ok (mkIS (Some m) (Some s) (Some (Some (tag_line m t l))) b).
Proof.
  intros Hm Hl H1 H2. unfold iana_line, tag_line. rewrite says_Type, H1, says_Subtag, H2, says_Supp.
  cbn [is_mode is_cur is_tag is_base]. destruct (says ws (lit "Suppress-Script") l) as [sc|] eqn:H3; [reflexivity|].
  change (startswith (lit "Deprecated: ") (strip ws l)) with (startswith (lit "Deprecated" ++ lit ": ") (strip ws l)).
  change (startswith (lit "Preferred-Value: ") (strip ws l)) with (startswith (lit "Preferred-Value" ++ lit ": ") (strip ws l)).
  rewrite !starts_none, says_Prefix, says_Desc.
  unfold omode, ostreq. rewrite Hm.
  destruct (says ws (lit "Deprecated") l) as [d1|] eqn:H4.
  - assert (E1 : says ws (lit "Description") l = None)
      by (destruct (says ws (lit "Description") l) eqn:H5; [excl H4 H5 | reflexivity]).
    assert (E2 : says ws (lit "Prefix") l = None)
      by (destruct (says ws (lit "Prefix") l) eqn:H5; [excl H4 H5 | reflexivity]).
    now rewrite E1, E2.
  - destruct (says ws (lit "Preferred-Value") l) as [d1|] eqn:H6.
    + assert (E1 : says ws (lit "Description") l = None)
        by (destruct (says ws (lit "Description") l) eqn:H5; [excl H6 H5 | reflexivity]).
      assert (E2 : says ws (lit "Prefix") l = None)
        by (destruct (says ws (lit "Prefix") l) eqn:H5; [excl H6 H5 | reflexivity]).
      now rewrite E1, E2.
    + destruct (says ws (lit "Prefix") l) as [p|] eqn:H7.
      * destruct (says ws (lit "Description") l) as [d|] eqn:H8; [reflexivity|].
        destruct (t_lang t) as [lg|]; [|congruence]. destruct (streq m extlang); reflexivity.
      * destruct (says ws (lit "Description") l) as [d|] eqn:H8; reflexivity.
Qed.

Lemma tag_line_lang m t l : t_lang t <> None -> t_lang (tag_line m t l) <> None.
Proof.
  intros H. unfold tag_line. destruct (says ws (lit "Suppress-Script") l); [exact H|].
  destruct (says ws (lit "Description") l); [exact H|]. destruct (says ws (lit "Prefix") l); [|exact H].
  destruct (t_lang t) eqn:E; [|congruence]. destruct (streq m extlang); [discriminate | congruence].
Qed.

Lemma iana_tag_lines m s b : streq m variant = false -> forall ls t, t_lang t <> None ->
  values ws (lit "Type") ls = [] -> values ws (lit "Subtag") ls = [] ->
  lines (mkIS (Some m) (Some s) (Some (Some t)) b) ls
  = Ok (mkIS (Some m) (Some s) (Some (Some (fold_left (tag_line m) ls t))) b).
Proof.
  intros Hm. induction ls as [|l ls IH]; intros t Hl H1 H2; [reflexivity|].
  unfold values in H1, H2. cbn [flat_map] in H1, H2. apply app_eq_nil in H1, H2. destruct H1 as [H1 H1'], H2 as [H2 H2'].
  destruct (says ws (lit "Type") l) eqn:E1; [discriminate|]. destruct (says ws (lit "Subtag") l) eqn:E2; [discriminate|].
  cbn [iana_lines]. rewrite iana_tag_line by assumption. cbn [bind fold_left]. apply IH; try assumption.
  now apply tag_line_lang.
Qed.

Lemma fold_tag_line m ls : forall lg sc hs ds,
  fold_left (tag_line m) ls (mkTag (Some lg) sc None None None hs false true ds)
  = mkTag (Some (fold_left (fun l p => p ++ lit "-" ++ l) (if streq m (lit "extlang") then values ws (lit "Prefix") ls else []) lg))
      (match values ws (lit "Suppress-Script") ls with [] => sc | _ => hd_error (rev (values ws (lit "Suppress-Script") ls)) end)
      None None None (match values ws (lit "Suppress-Script") ls with [] => hs | _ => true end) false true
      (ds ++ map (strip ws) (values ws (lit "Description") ls)).
Proof.
  induction ls as [|l ls IH]; intros lg sc hs ds.
  - cbn [fold_left values flat_map map]. rewrite app_nil_r. destruct (streq m (lit "extlang")); reflexivity.
  - cbn [fold_left]. unfold values. cbn [flat_map]. fold (values ws (lit "Prefix") ls).
    fold (values ws (lit "Suppress-Script") ls). fold (values ws (lit "Description") ls).
    unfold tag_line at 2. change extlang with (lit "extlang").
    destruct (says ws (lit "Suppress-Script") l) as [v|] eqn:H1.
    + assert (E1 : says ws (lit "Description") l = None)
        by (destruct (says ws (lit "Description") l) eqn:H5; [excl H1 H5 | reflexivity]).
      assert (E2 : says ws (lit "Prefix") l = None)
        by (destruct (says ws (lit "Prefix") l) eqn:H5; [excl H1 H5 | reflexivity]).
      rewrite E1, E2. unfold set_hidescript, set_script. cbn [t_lang t_script t_region t_vars t_exts t_hidescript t_hideregion t_hideboth t_desc].
      rewrite IH. cbn [app rev]. destruct (values ws (lit "Suppress-Script") ls) as [|x y]; [reflexivity|].
      f_equal. cbn [rev]. destruct (rev y ++ [x]) eqn:E; [destruct (rev y); discriminate|]. reflexivity.
    + destruct (says ws (lit "Description") l) as [v|] eqn:H2.
      * assert (E2 : says ws (lit "Prefix") l = None)
          by (destruct (says ws (lit "Prefix") l) eqn:H5; [excl H2 H5 | reflexivity]).
        rewrite E2. unfold set_desc. cbn [t_lang t_script t_region t_vars t_exts t_hidescript t_hideregion t_hideboth t_desc].
        rewrite IH. cbn [app map]. now rewrite <- app_assoc.
      * cbn [t_lang]. destruct (says ws (lit "Prefix") l) as [p|] eqn:H3.
        -- destruct (streq m (lit "extlang")) eqn:Em.
           ++ unfold set_lang. cbn [t_lang t_script t_region t_vars t_exts t_hidescript t_hideregion t_hideboth t_desc].
              rewrite IH. reflexivity.
           ++ rewrite IH. reflexivity.
        -- rewrite IH. reflexivity.
Qed.

(** the rest of a variant *)
Definition add_prefix (v : pystr) (b : ibase) (p : pystr) : ibase :=
  mkIB (Some true)
    (dset streq (ib_vars b) (strip ws p) ((match dget streq (ib_vars b) (strip ws p) with Some vs => vs | None => [] end) ++ [v]))
    (ib_glob b) (ib_reg b) (ib_next b).
Lemma iana_variant_lines v : forall ls b,
  values ws (lit "Type") ls = [] -> values ws (lit "Subtag") ls = [] -> values ws (lit "Suppress-Script") ls = [] ->
  lines (mkIS (Some variant) (Some v) (Some None) b) ls
  = Ok (mkIS (Some variant) (Some v) (Some None) (fold_left (add_prefix v) (values ws (lit "Prefix") ls) b)).
Proof.
  induction ls as [|l ls IH]; intros b H1 H2 H3; [reflexivity|].
  unfold values in H1, H2, H3. cbn [flat_map] in H1, H2, H3. apply app_eq_nil in H1, H2, H3.
  destruct H1 as [H1 H1'], H2 as [H2 H2'], H3 as [H3 H3'].
  destruct (says ws (lit "Type") l) eqn:E1; [discriminate|]. destruct (says ws (lit "Subtag") l) eqn:E2; [discriminate|].
  destruct (says ws (lit "Suppress-Script") l) eqn:E3; [discriminate|].
  cbn [iana_lines]. unfold values. cbn [flat_map]. fold (values ws (lit "Prefix") ls). rewrite fold_left_app.
  assert (E : line (mkIS (Some variant) (Some v) (Some None) b) l
    = Ok (mkIS (Some variant) (Some v) (Some None) (fold_left (add_prefix v)
        (match says ws (lit "Prefix") l with Some p => [p] | None => [] end) b))).
  { unfold iana_line. rewrite says_Type, E1, says_Subtag, E2, says_Supp, E3.
    cbn [is_mode is_cur is_tag is_base].
    change (startswith (lit "Deprecated: ") (strip ws l)) with (startswith (lit "Deprecated" ++ lit ": ") (strip ws l)).
    change (startswith (lit "Preferred-Value: ") (strip ws l)) with (startswith (lit "Preferred-Value" ++ lit ": ") (strip ws l)).
    rewrite !starts_none, says_Prefix, says_Desc.
    destruct (says ws (lit "Deprecated") l) as [d1|] eqn:H4.
    - assert (X2 : says ws (lit "Prefix") l = None)
        by (destruct (says ws (lit "Prefix") l) eqn:H5; [excl H4 H5 | reflexivity]).
      now rewrite X2.
    - destruct (says ws (lit "Preferred-Value") l) as [d1|] eqn:H6.
      + assert (X2 : says ws (lit "Prefix") l = None)
          by (destruct (says ws (lit "Prefix") l) eqn:H5; [excl H6 H5 | reflexivity]).
        now rewrite X2.
      + destruct (says ws (lit "Prefix") l) as [p|] eqn:H7; [reflexivity|].
        destruct (says ws (lit "Description") l) as [d|] eqn:H8; reflexivity. }
  rewrite E. cbn [bind]. apply IH; assumption.
Qed.

(** the rest of any other record *)
Lemma iana_idle_lines m b : forall ls,
  values ws (lit "Type") ls = [] -> values ws (lit "Subtag") ls = [] ->
  lines (mkIS (Some m) None (Some None) b) ls = Ok (mkIS (Some m) None (Some None) b).
Proof.
  induction ls as [|l ls IH]; intros H1 H2; [reflexivity|].
  unfold values in H1, H2. cbn [flat_map] in H1, H2. apply app_eq_nil in H1, H2.
  destruct H1 as [H1 H1'], H2 as [H2 H2'].
  destruct (says ws (lit "Type") l) eqn:E1; [discriminate|]. destruct (says ws (lit "Subtag") l) eqn:E2; [discriminate|].
  cbn [iana_lines].
  assert (E : line (mkIS (Some m) None (Some None) b) l = Ok (mkIS (Some m) None (Some None) b)).
  { unfold iana_line. rewrite says_Type, E1, says_Subtag, E2, says_Supp.
    cbn [is_mode is_cur is_tag is_base].
    change (startswith (lit "Deprecated: ") (strip ws l)) with (startswith (lit "Deprecated" ++ lit ": ") (strip ws l)).
    change (startswith (lit "Preferred-Value: ") (strip ws l)) with (startswith (lit "Preferred-Value" ++ lit ": ") (strip ws l)).
    rewrite !starts_none, says_Prefix, says_Desc.
    destruct (says ws (lit "Suppress-Script") l), (says ws (lit "Deprecated") l), (says ws (lit "Preferred-Value") l),
      (says ws (lit "Prefix") l), (says ws (lit "Description") l), (omode (Some m) variant), (omode (Some m) extlang); reflexivity. }
  rewrite E. cbn [bind]. now apply IH.
Qed.

(** ** Records *)
(** the effect of a whole record, its end included *)
Definition rec_done (b : ibase) (rc : irec) : ibase :=
  let b1 := fold_left (fun b pv => add_prefix (snd pv) b (fst pv))
     (match rc_sub rc with
      | Some s => if streq (rc_type rc) variant then map (fun p => (p, s)) (values ws (lit "Prefix") (rc_rest rc)) else []
      | None => [] end) b in
  let '(r', n') := add_tags order (ib_reg b1) (ib_next b1) (rec_tags ws rc) in
  mkIB (if streq (rc_type rc) variant then Some false else ib_has b1) (ib_vars b1)
       (ib_glob b1 ++ map Some (rec_global ws rc)) r' n'.

Lemma fold_prefix_pairs v : forall ps b,
  fold_left (add_prefix v) ps b = fold_left (fun b (pv : pystr * pystr) => add_prefix (snd pv) b (fst pv)) (map (fun p => (p, v)) ps) b.
Proof. induction ps as [|p ps IH]; intros b; [reflexivity|]. cbn [map fold_left fst snd]. apply IH. Qed.

Lemma add_prefixes_keep v : forall ps b,
  let b' := fold_left (add_prefix v) ps b in
  ib_glob b' = ib_glob b /\ ib_reg b' = ib_reg b /\ ib_next b' = ib_next b /\
  ib_has b' = match ps with [] => ib_has b | _ => Some true end.
Proof.
  induction ps as [|p ps IH]; intros b; [repeat split|]. cbn [fold_left].
  destruct (IH (add_prefix v b p)) as (A & B & C & D). cbn zeta. rewrite A, B, C, D.
  repeat split. destruct ps; reflexivity.
Qed.

Lemma run_record rc ls st b : rec_lines ws rc ls -> sound ws rc ->
  end_record order st = Ok b ->
  (is_variant rc -> values ws (lit "Prefix") (rc_rest rc) = [] -> ib_has b = Some false) ->
  exists st', lines st ls = Ok st' /\ is_mode st' = Some (rc_type rc) /\
    (is_cur st' <> None <-> is_variant rc \/ rec_tags ws rc <> []) /\
    (is_variant rc -> is_tag st' = Some None) /\
    end_record order st' = Ok (rec_done b rc).
Proof.
  intros (HT & HS & lt & Et & HL) HV EB Hhas.
  assert (ET : line st lt = Ok (mkIS (Some (rc_type rc)) None (Some None) b)).
  { unfold iana_line. rewrite says_Type, Et, EB. reflexivity. }
  assert (XT : forall l2 s, says ws (lit "Subtag") l2 = Some s -> says ws (lit "Type") l2 = None).
  { intros l2 s H. destruct (says ws (lit "Type") l2) eqn:H5; [excl H H5 | reflexivity]. }
  unfold is_variant, sound, is_variant in *. change (lit "variant") with variant in *.
  destruct (rc_sub rc) as [s|] eqn:ES.
  - destruct HL as (l2 & E2 & ->). cbn [iana_lines]. rewrite ET. cbn [bind].
    unfold iana_line at 1. rewrite says_Type, (XT _ _ E2), says_Subtag, E2. cbn [is_mode is_base is_tag].
    assert (EM : existsb (omode (Some (rc_type rc))) tag_modes
      = existsb (streq (rc_type rc)) [lit "language"; lit "extlang"; lit "grandfathered"; lit "redundant"]) by reflexivity.
    rewrite EM. unfold omode, ostreq at 1.
    unfold rec_done, rec_tags, rec_global. rewrite ES. change (lit "variant") with variant.
    destruct (existsb (streq (rc_type rc)) [lit "language"; lit "extlang"; lit "grandfathered"; lit "redundant"]) eqn:EX.
    + assert (NV : streq (rc_type rc) variant = false).
      { destruct (streq_spec (rc_type rc) variant) as [X|]; [|reflexivity]. rewrite X in EX. discriminate EX. }
      rewrite NV. cbn [bind]. rewrite iana_tag_lines; [|exact NV|discriminate|exact HT|exact HS].
      eexists. split; [reflexivity|]. cbn [is_mode is_cur is_tag is_base fold_left map].
      split; [reflexivity|]. split; [split; [intros _; right; discriminate | discriminate]|].
      split; [intros X; rewrite X in NV; discriminate NV|].
      unfold end_record. cbn [is_mode is_cur is_tag is_base]. unfold omode, ostreq. rewrite NV.
      unfold put_tag, newtag. cbn [isNone andb]. rewrite fold_tag_line. cbn [app].
      unfold add_tags. cbn [fold_left fst snd]. rewrite app_nil_r. unfold rec_tag.
      do 2 f_equal. f_equal. f_equal. f_equal.
      destruct (values ws (lit "Suppress-Script") (rc_rest rc)); reflexivity.
    + destruct (streq_spec (rc_type rc) variant) as [EV|NV].
      * cbn [bind]. rewrite EV. destruct (HV EV) as [_ HP]. rewrite iana_variant_lines by assumption.
        eexists. split; [reflexivity|]. cbn [is_mode is_cur is_tag is_base].
        split; [reflexivity|]. split; [split; [intros _; now left | discriminate]|]. split; [reflexivity|].
        unfold end_record. cbn [is_mode is_cur is_tag is_base]. unfold omode, ostreq.
        rewrite streq_refl. unfold add_tags. cbn [fold_left]. rewrite <- fold_prefix_pairs.
        destruct (add_prefixes_keep s (values ws (lit "Prefix") (rc_rest rc)) b) as (A & B & C & D).
        cbn zeta in *. rewrite D, A, B, C.
        destruct (values ws (lit "Prefix") (rc_rest rc)) as [|p ps] eqn:EP.
        -- rewrite (Hhas EV eq_refl). reflexivity.
        -- cbn [map]. rewrite app_nil_r. reflexivity.
      * cbn [bind]. rewrite iana_idle_lines by assumption.
        eexists. split; [reflexivity|]. cbn [is_mode is_cur is_tag is_base].
        split; [reflexivity|]. split; [split; [congruence | intros [?|?]; congruence]|]. split; [congruence|].
        unfold end_record. cbn [is_mode is_cur is_tag is_base]. unfold omode, ostreq.
        destruct (streq_spec (rc_type rc) variant); [congruence|]. unfold add_tags. cbn [fold_left map]. rewrite app_nil_r.
        destruct b; reflexivity.
  - subst ls. cbn [iana_lines]. rewrite ET. cbn [bind]. rewrite iana_idle_lines by assumption.
    assert (NV : rc_type rc <> variant) by (intros EV; now destruct (HV EV)).
    unfold rec_done, rec_tags, rec_global. rewrite ES.
    eexists. split; [reflexivity|]. cbn [is_mode is_cur is_tag is_base].
    split; [reflexivity|]. split; [split; [congruence | intros [?|?]; congruence]|]. split; [congruence|].
    unfold end_record. cbn [is_mode is_cur is_tag is_base]. unfold omode, ostreq.
    destruct (streq_spec (rc_type rc) variant); [congruence|]. unfold add_tags. cbn [fold_left map]. rewrite app_nil_r.
    destruct b; reflexivity.
Qed.

Definition start (r : registry) (n : nat) : istate := mkIS None None None (mkIB None [] [] r n).

Lemma run_quiet r n ls : Forall (quiet ws) ls -> lines (start r n) ls = Ok (start r n).
Proof.
  induction 1 as [|l ls H HF IH]; [reflexivity|]. cbn [iana_lines].
  assert (E : line (start r n) l = Ok (start r n)).
  { assert (Q : forall k, In k [lit "Type"; lit "Subtag"; lit "Deprecated"; lit "Preferred-Value"; lit "Description"] -> says ws k l = None) by exact H.
    unfold iana_line. rewrite says_Type, Q, says_Subtag, Q, says_Supp by (cbn [In]; tauto).
    cbn [start is_mode is_cur is_tag is_base].
    change (startswith (lit "Deprecated: ") (strip ws l)) with (startswith (lit "Deprecated" ++ lit ": ") (strip ws l)).
    change (startswith (lit "Preferred-Value: ") (strip ws l)) with (startswith (lit "Preferred-Value" ++ lit ": ") (strip ws l)).
    rewrite !starts_none, says_Prefix, says_Desc. rewrite (Q (lit "Deprecated")), (Q (lit "Preferred-Value")), (Q (lit "Description")) by (cbn [In]; tauto).
    destruct (says ws (lit "Suppress-Script") l), (says ws (lit "Prefix") l); reflexivity. }
  rewrite E. cbn [bind]. exact IH.
Qed.

Lemma lines_app : forall a b st, lines st (a ++ b) = do st' <- lines st a; lines st' b.
Proof.
  induction a as [|l a IH]; intros b st; [reflexivity|]. cbn [app iana_lines].
  destruct (line st l) as [st'|e]; cbn [bind]; [apply IH | reflexivity].
Qed.

Lemma rec_done_has b rc : ib_has (rec_done b rc) =
  if streq (rc_type rc) variant then Some false else ib_has b.
Proof.
  unfold rec_done. destruct (add_tags _ _ _ _) as [r' n']. cbn [ib_has].
  destruct (streq (rc_type rc) variant); [reflexivity|]. destruct (rc_sub rc); reflexivity.
Qed.

Lemma run_records : forall rcs blocks, Forall2 (rec_lines ws) rcs blocks -> Forall (sound ws) rcs ->
  forall before st b, end_record order st = Ok b ->
  ((exists rc, In rc before /\ is_variant rc) -> ib_has b = Some false) ->
  first_has_prefix ws (before ++ rcs) ->
  exists st', lines st (concat blocks) = Ok st' /\
    end_record order st' = Ok (fold_left rec_done rcs b) /\
    ((exists rc, In rc (before ++ rcs) /\ is_variant rc) -> ib_has (fold_left rec_done rcs b) = Some false) /\
    (forall rcs1 last, rcs = rcs1 ++ [last] -> is_mode st' = Some (rc_type last) /\
       (is_cur st' <> None <-> is_variant last \/ rec_tags ws last <> []) /\
       (is_variant last -> is_tag st' = Some None)).
Proof.
  induction 1 as [|rc ls rcs blocks HL H2 IH]; intros HS before st b EB HB HF.
  - exists st. split; [reflexivity|]. split; [exact EB|]. rewrite app_nil_r. split; [exact HB|].
    intros rcs1 last E. destruct rcs1; discriminate E.
  - inversion HS as [|? ? S1 S2]; subst.
    destruct (run_record rc ls st b HL S1 EB) as (st1 & R1 & M1 & C1 & T1 & E1).
    { intros V P. assert (D : (exists r, In r before /\ is_variant r) \/ ~ (exists r, In r before /\ is_variant r)).
      { clear. induction before as [|r before IHb]; [right; intros (? & [] & _)|].
        destruct (list_eq_dec N.eq_dec (rc_type r) (lit "variant")) as [E|E]; [left; exists r; split; [now left | exact E]|].
        destruct IHb as [(x & A & B)|N]; [left; exists x; split; [now right | exact B]|].
        right. intros (x & [<-|A] & B); [exact (E B) | apply N; now exists x]. }
      destruct D as [D|D]; [now apply HB|]. exfalso.
      apply (HF before rc rcs eq_refl V); [|exact P]. intros r Hr Vr. apply D. now exists r. }
    destruct (IH S2 (before ++ [rc]) st1 (rec_done b rc) E1) as (st2 & R2 & E2 & B2 & L2).
    + intros (r & Hr & Vr). rewrite rec_done_has.
      destruct (streq_spec (rc_type rc) variant) as [X|X]; [reflexivity|].
      apply HB. apply in_app_or in Hr. destruct Hr as [Hr|[<-|[]]]; [now exists r | destruct (X Vr)].
    + rewrite <- app_assoc. exact HF.
    + exists st2. cbn [concat]. rewrite lines_app, R1. cbn [bind]. split; [exact R2|]. split; [exact E2|].
      split; [intros X; apply B2; rewrite <- app_assoc; exact X|].
      intros rcs1 last E. destruct rcs1 as [|rc1 rcs1].
      * injection E as <- ->. inversion H2; subst. cbn [concat iana_lines] in R2. injection R2 as <-. auto.
      * injection E as <- ->. now apply (L2 rcs1 last).
Qed.

Lemma rec_done_all : forall rcs b,
  let b' := fold_left rec_done rcs b in
  (ib_reg b', ib_next b') = add_tags order (ib_reg b) (ib_next b) (flat_map (rec_tags ws) rcs) /\
  ib_glob b' = ib_glob b ++ map Some (flat_map (rec_global ws) rcs) /\
  forall p, dget streq (ib_vars b') p =
    match (match dget streq (ib_vars b) p with Some vs => vs | None => [] end)
          ++ map snd (filter (fun pv => streq (fst pv) p) (flat_map (rec_prefixes ws) rcs)) with
    | [] => match dget streq (ib_vars b) p with Some vs => Some vs | None => None end
    | vs => Some vs end.
Proof.
  induction rcs as [|rc rcs IH]; intros b b'.
  - unfold b'. cbn [fold_left flat_map map filter]. rewrite !app_nil_r. split; [reflexivity|]. split; [reflexivity|].
    intros p. rewrite ?app_nil_r. destruct (dget streq (ib_vars b) p) as [[|]|]; reflexivity.
  - unfold b'. cbn [fold_left flat_map]. destruct (IH (rec_done b rc)) as (A & B & C). rewrite A, B.
    assert (K : let b1 := rec_done b rc in
      (ib_reg b1, ib_next b1) = add_tags order (ib_reg b) (ib_next b) (rec_tags ws rc) /\
      ib_glob b1 = ib_glob b ++ map Some (rec_global ws rc) /\
      forall p, dget streq (ib_vars b1) p =
        match (match dget streq (ib_vars b) p with Some vs => vs | None => [] end)
              ++ map snd (filter (fun pv => streq (fst pv) p) (rec_prefixes ws rc)) with
        | [] => match dget streq (ib_vars b) p with Some vs => Some vs | None => None end
        | vs => Some vs end).
    { unfold rec_done, rec_prefixes. change (lit "variant") with variant.
      set (ps := match rc_sub rc with Some s => _ | None => _ end).
      set (b1 := fold_left _ ps b).
      assert (G : ib_glob b1 = ib_glob b /\ ib_reg b1 = ib_reg b /\ ib_next b1 = ib_next b /\
        forall p, dget streq (ib_vars b1) p =
        match (match dget streq (ib_vars b) p with Some vs => vs | None => [] end)
              ++ map snd (filter (fun pv => streq (strip ws (fst pv)) p) ps) with
        | [] => match dget streq (ib_vars b) p with Some vs => Some vs | None => None end
        | vs => Some vs end).
      { unfold b1. clear. revert b. induction ps as [|[q v] ps IHp]; intros b; cbn [fold_left].
        - cbn [filter map]. repeat split. intros p. rewrite ?app_nil_r. destruct (dget streq (ib_vars b) p) as [[|]|]; reflexivity.
        - destruct (IHp (add_prefix v b q)) as (X1 & X2 & X3 & X4). cbn [fst snd] in *.
          rewrite X1, X2, X3. repeat split. intros p. rewrite X4. unfold add_prefix. cbn [ib_vars filter fst].
          rewrite (dget_dset streq streq_spec). destruct (streq_spec p (strip ws q)) as [->|NE].
          + rewrite streq_refl. cbn [map snd]. rewrite <- app_assoc.
            destruct (dget streq (ib_vars b) (strip ws q)) as [[|]|]; reflexivity.
          + destruct (streq_spec (strip ws q) p) as [X|_]; [congruence|]. reflexivity. }
      destruct G as (G1 & G2 & G3 & G4).
      destruct (add_tags order (ib_reg b1) (ib_next b1) (rec_tags ws rc)) as [r' n'] eqn:EA.
      cbn [ib_reg ib_next ib_glob ib_vars]. rewrite <- EA, G1, G2, G3. split; [reflexivity|]. split; [reflexivity|].
      intros p. rewrite G4.
      assert (EP : map snd (filter (fun pv => streq (strip ws (fst pv)) p) ps) =
        map snd (filter (fun pv => streq (fst pv) p) (match rc_sub rc with
          | Some s => if streq (rc_type rc) variant then map (fun p0 => (strip ws p0, s)) (values ws (lit "Prefix") (rc_rest rc)) else []
          | None => [] end))).
      { unfold ps. destruct (rc_sub rc) as [s|]; [|reflexivity]. destruct (streq (rc_type rc) variant); [|reflexivity].
        generalize (values ws (lit "Prefix") (rc_rest rc)). clear. induction l as [|q l IHl]; [reflexivity|].
        cbn [map filter fst]. destruct (streq (strip ws q) p); cbn [map snd]; now rewrite IHl. }
      now rewrite EP. }
    cbn zeta in K. destruct K as (K1 & K2 & K3). split; [|split].
    + unfold add_tags at 2. rewrite fold_left_app. fold (add_tags order (ib_reg b) (ib_next b) (rec_tags ws rc)).
      rewrite <- K1. reflexivity.
    + now rewrite K2, map_app, app_assoc.
    + intros p. rewrite C, K3, filter_app, map_app.
      destruct (dget streq (ib_vars b) p) as [[|x v]|]; cbn [app];
        destruct (map snd (filter (fun pv => streq (fst pv) p) (rec_prefixes ws rc))) as [|y w]; cbn [app]; try reflexivity;
        now rewrite <- ?app_assoc.
Qed.

(** ** The theorems *)
(** A registry file is read completely: every language, in the order of the file, is added with
    its tag; the variants are listed under each of their prefixes in the order of the file, and
    those without a prefix apart. *)
Theorem C70_read r n pre rcs blocks :
  Forall (quiet ws) pre -> Forall2 (rec_lines ws) rcs blocks -> Forall (sound ws) rcs -> first_has_prefix ws rcs ->
  (forall rcs1 last, rcs = rcs1 ++ [last] -> ~ is_variant last) ->
  exists b, read_iana ws order r n (pre ++ concat blocks) = Ok b /\
    (ib_reg b, ib_next b) = add_tags order r n (flat_map (rec_tags ws) rcs) /\
    (forall p, dget streq (ib_vars b) p =
       match map snd (filter (fun pv => streq (fst pv) p) (flat_map (rec_prefixes ws) rcs)) with
       | [] => None
       | vs => Some vs
       end) /\
    ib_glob b = map Some (flat_map (rec_global ws) rcs).
Proof.
  intros HQ HL HS HF HV. unfold read_iana. fold (start r n). rewrite lines_app, run_quiet by exact HQ. cbn [bind].
  destruct (run_records rcs blocks HL HS [] (start r n) (mkIB None [] [] r n)) as (st & R & E & _ & L).
  { reflexivity. } { intros (x & [] & _). } { exact HF. }
  rewrite R. cbn [bind].
  assert (EF : match is_cur st with None => Ok (is_base st) | Some _ => put_tag order (is_tag st) (is_base st) end
    = Ok (fold_left rec_done rcs (mkIB None [] [] r n))).
  { destruct rcs as [|rc rcs'] using rev_ind.
    - inversion HL; subst. cbn [concat iana_lines] in R. injection R as <-. reflexivity.
    - clear IHrcs'. destruct (L rcs' rc eq_refl) as (M & C & T). pose proof (HV rcs' rc eq_refl) as NV.
      unfold end_record in E. rewrite M in E. unfold omode, ostreq in E.
      destruct (streq_spec (rc_type rc) variant) as [X|_]; [destruct (NV X)|]. exact E. }
  rewrite EF. eexists. split; [reflexivity|].
  destruct (rec_done_all rcs (mkIB None [] [] r n)) as (A & B & C). cbn [ib_reg ib_next ib_glob ib_vars] in *.
  split; [exact A|]. split; [|exact B]. exact C.
Qed.

(** What is registered: each language under its subtag, after its prefix for extended languages,
    and also with the script that it suppresses. *)
Lemma add_tags_keys : set_order order -> forall ts r n,
  (forall f, lookup r f <> None -> lookup (fst (add_tags order r n ts)) f <> None) /\
  (forall t f, In t ts -> In f (allforms t) -> lookup (fst (add_tags order r n ts)) f <> None).
Proof.
  intros HO. induction ts as [|t ts IH]; intros r n; [split; [auto | intros t f []]|].
  unfold add_tags in *. cbn [fold_left fst snd].
  destruct (add order (mkReg (r_map r) (upd (r_obj r) n t)) n) as [r1 ret] eqn:EA. cbn [fst].
  destruct (C17_add_spec _ _ _ _ _ HO EA) as (A1 & A2 & _).
  cbn [r_obj] in A1, A2. unfold upd in A1, A2. rewrite Nat.eqb_refl in A1, A2.
  destruct (IH r1 (S n)) as [B1 B2]. split.
  - intros f Hf. apply B1. destruct (in_dec (list_eq_dec N.eq_dec) f (allforms t)) as [Hi|Hi]; [now apply A1|].
    rewrite A2 by exact Hi. exact Hf.
  - intros t' f [<-|Ht] Hf; [apply B1, A1, Hf | now apply (B2 t')].
Qed.

Theorem C70_registered r n pre rcs blocks b : set_order order ->
  Forall (quiet ws) pre -> Forall2 (rec_lines ws) rcs blocks -> Forall (sound ws) rcs -> first_has_prefix ws rcs ->
  (forall rcs1 last, rcs = rcs1 ++ [last] -> ~ is_variant last) ->
  read_iana ws order r n (pre ++ concat blocks) = Ok b ->
  (forall f, lookup r f <> None -> lookup (ib_reg b) f <> None) /\
  forall rc s, In rc rcs -> names_language rc -> rc_sub rc = Some s -> s <> [] ->
    let lang := fold_left (fun l p => p ++ lit "-" ++ l)
      (if streq (rc_type rc) (lit "extlang") then values ws (lit "Prefix") (rc_rest rc) else []) s in
    lookup (ib_reg b) lang <> None /\
    forall scs sc, values ws (lit "Suppress-Script") (rc_rest rc) = scs ++ [sc] -> sc <> [] ->
      lookup (ib_reg b) (lang ++ lit "-" ++ sc) <> None.
Proof.
  intros HO HQ HL HS HF HV HR.
  destruct (C70_read r n pre rcs blocks HQ HL HS HF HV) as (b' & HR' & A & _).
  assert (b' = b) by congruence. subst b'. clear HR'.
  destruct (add_tags_keys HO (flat_map (rec_tags ws) rcs) r n) as [K1 K2].
  rewrite <- A in K1, K2. cbn [fst] in K1, K2. split; [exact K1|].
  intros rc s Hrc [HM _] Hs Hne lang.
  assert (Ht : In (rec_tag ws rc s) (flat_map (rec_tags ws) rcs)).
  { apply in_flat_map. exists rc. split; [exact Hrc|]. unfold rec_tags. rewrite Hs.
    replace (existsb (streq (rc_type rc)) [lit "language"; lit "extlang"; lit "grandfathered"; lit "redundant"]) with true; [now left|].
    symmetry. apply existsb_exists. exists (rc_type rc). split; [exact HM | apply streq_refl]. }
  assert (Hlang : lang <> []).
  { unfold lang. generalize (if streq (rc_type rc) (lit "extlang") then values ws (lit "Prefix") (rc_rest rc) else []).
    clear -Hne. intros ps. revert s Hne. induction ps as [|p ps IH]; intros s Hne; [exact Hne|]. cbn [fold_left].
    apply IH. destruct p; discriminate. }
  assert (EL : t_lang (rec_tag ws rc s) = Some lang) by reflexivity.
  split.
  - apply (K2 _ lang Ht). unfold allforms, sr_choices, script_choices, region_choices, var_form, ext_form.
    rewrite EL. unfold rec_tag. cbn [t_script t_region t_vars t_exts t_hidescript t_hideregion t_hideboth isNone orb app].
    apply in_map_iff. exists (None, None). split.
    + cbn [fst snd nonempty_opts flat_map app]. destruct lang; [congruence|reflexivity].
    + apply filter_In. split; [|reflexivity]. apply in_prod; [|now left].
      apply in_or_app. left. destruct (values ws (lit "Suppress-Script") (rc_rest rc)) as [|x l] eqn:E; [now left|].
      cbn [orb]. now left.
  - intros scs sc E Hsc. apply (K2 _ _ Ht). unfold allforms, sr_choices, script_choices, region_choices, var_form, ext_form.
    rewrite EL. unfold rec_tag. rewrite E, rev_app_distr. cbn [rev app hd_error].
    cbn [t_script t_region t_vars t_exts t_hidescript t_hideregion t_hideboth isNone orb app].
    apply in_map_iff. exists (Some sc, None). split.
    + cbn [fst snd nonempty_opts flat_map app]. destruct lang; [congruence|]. destruct sc; [congruence|]. reflexivity.
    + apply filter_In. split; [|reflexivity]. apply in_prod; [|now left]. apply in_or_app. right. now left.
Qed.

(** A file that ends with a variant is not read: the code adds the tag of the last record, and a
    variant has none. *)
Theorem C70_last_variant_raises r n pre rcs last blocks :
  Forall (quiet ws) pre -> Forall2 (rec_lines ws) (rcs ++ [last]) blocks -> Forall (sound ws) (rcs ++ [last]) ->
  first_has_prefix ws (rcs ++ [last]) -> is_variant last ->
  read_iana ws order r n (pre ++ concat blocks) = Raise AttributeError.
Proof.
  intros HQ HL HS HF HV. unfold read_iana. fold (start r n). rewrite lines_app, run_quiet by exact HQ. cbn [bind].
  destruct (run_records _ blocks HL HS [] (start r n) (mkIB None [] [] r n)) as (st & R & E & _ & L).
  { reflexivity. } { intros (x & [] & _). } { exact HF. }
  rewrite R. cbn [bind]. destruct (L rcs last eq_refl) as (M & C & T).
  destruct (is_cur st) as [c|] eqn:EC.
  - rewrite (T HV). reflexivity.
  - exfalso. apply C; [now left | reflexivity].
Qed.

(** Nor is one whose first variant has no prefix, if another record follows. *)
Theorem C70_first_variant_raises r n pre rcs rc blocks lt rest m :
  Forall (quiet ws) pre -> Forall2 (rec_lines ws) (rcs ++ [rc]) blocks -> Forall (sound ws) (rcs ++ [rc]) ->
  (forall x, In x rcs -> ~ is_variant x) -> is_variant rc -> values ws (lit "Prefix") (rc_rest rc) = [] ->
  says ws (lit "Type") lt = Some m ->
  read_iana ws order r n (pre ++ concat blocks ++ lt :: rest) = Raise NameError.
Proof.
  intros HQ HL HS HN HV HP Hlt. unfold read_iana. fold (start r n). rewrite lines_app, run_quiet by exact HQ. cbn [bind].
  apply Forall2_app_inv_l in HL. destruct HL as (bl1 & bl2 & HL1 & HL2 & ->).
  inversion HL2 as [|? bl ? ? HLr HLn]; subst. inversion HLn; subst. clear HL2 HLn.
  apply Forall_app in HS. destruct HS as [HS1 HS2]. inversion HS2 as [|? ? Sr _]; subst. clear HS2.
  destruct (run_records rcs bl1 HL1 HS1 [] (start r n) (mkIB None [] [] r n)) as (st & R & E & _ & _).
  { reflexivity. } { intros (x & [] & _). }
  { intros before x after EX V _. exfalso. apply (HN x); [|exact V]. cbn [app] in EX. rewrite EX. apply in_or_app. right. now left. }
  assert (Hh : ib_has (fold_left rec_done rcs (mkIB None [] [] r n)) = None).
  { assert (G : forall b, ib_has b = None -> ib_has (fold_left rec_done rcs b) = None).
    { clear -HN. induction rcs as [|x rcs IH]; intros b Hb; [exact Hb|]. cbn [fold_left]. apply IH.
      - intros y Hy. apply HN. now right.
      - rewrite rec_done_has. destruct (streq_spec (rc_type x) variant) as [X|_]; [|exact Hb].
        destruct (HN x (or_introl eq_refl) X). }
    now apply G. }
  rewrite concat_app. cbn [concat]. rewrite app_nil_r, <- app_assoc, lines_app, R. cbn [bind].
  destruct HLr as (HT & HS' & l1 & E1 & HLr). destruct (Sr HV) as [SV SP].
  destruct (rc_sub rc) as [s|] eqn:ES; [|congruence]. destruct HLr as (l2 & E2 & ->).
  cbn [app iana_lines]. unfold iana_line at 1. rewrite says_Type, E1, E. cbn [bind].
  assert (XT : says ws (lit "Type") l2 = None).
  { destruct (says ws (lit "Type") l2) eqn:H5; [excl E2 H5 | reflexivity]. }
  unfold iana_line at 1. rewrite says_Type, XT, says_Subtag, E2. cbn [is_mode is_base is_tag].
  unfold is_variant in HV. change (lit "variant") with variant in HV. rewrite HV.
  change (existsb (omode (Some variant)) tag_modes) with false. change (omode (Some variant) variant) with true.
  cbn [bind]. rewrite lines_app, iana_variant_lines by assumption. rewrite HP. cbn [fold_left bind iana_lines].
  unfold iana_line. rewrite says_Type, Hlt. unfold end_record. cbn [is_mode is_base].
  change (omode (Some variant) variant) with true. cbn [is_base]. rewrite Hh. reflexivity.
Qed.
End Iana.

(** ** The hypotheses can be met *)
Definition sp (c : N) : bool := N.eqb c 32.
Definition ex_recs : list irec :=
  [ mkRec (lit "language") (Some (lit "aa")) [lit "Description: Afar"; lit "Added: 2005-10-16"];
    mkRec (lit "language") (Some (lit "ab")) [lit "Description: Abkhazian"; lit "Suppress-Script: Cyrl"; lit "%%"];
    mkRec (lit "extlang") (Some (lit "aao")) [lit "Preferred-Value: aao"; lit "Prefix: ar"; lit "%%"];
    mkRec (lit "script") (Some (lit "Adlm")) [lit "Description: Adlam"];
    mkRec (lit "variant") (Some (lit "1606nict")) [lit "Description: Late Middle French"; lit "Prefix: frm"];
    mkRec (lit "variant") (Some (lit "fonipa")) [lit "Description: International Phonetic Alphabet"];
    mkRec (lit "variant") (Some (lit "baku1926")) [lit "Prefix: az"; lit "Prefix: ba"];
    mkRec (lit "redundant") None [lit "Tag: az-Arab"] ].
Definition ex_block (rc : irec) : list pystr :=
  (lit "Type: " ++ rc_type rc) :: match rc_sub rc with Some s => [lit "Subtag: " ++ s] | None => [] end ++ rc_rest rc.

Example C70_nonvacuous :
  Forall (quiet sp) [lit "File-Date: 2020-05-12"; lit "%%"] /\
  Forall2 (rec_lines sp) ex_recs (map ex_block ex_recs) /\ Forall (sound sp) ex_recs /\ first_has_prefix sp ex_recs /\
  (forall rcs1 last, ex_recs = rcs1 ++ [last] -> ~ is_variant last) /\
  exists b, read_iana sp (fun l => l) (mkReg [] (fun _ => newtag None None None None None)) 0
     ([lit "File-Date: 2020-05-12"; lit "%%"] ++ concat (map ex_block ex_recs)) = Ok b /\
   dkeys (r_map (ib_reg b)) = [lit "aa"; lit "ab"; lit "ab-Cyrl"; lit "ar-aao"] /\
   ib_vars b = [(lit "frm", [lit "1606nict"]); (lit "az", [lit "baku1926"]); (lit "ba", [lit "baku1926"])] /\
   ib_glob b = [Some (lit "fonipa")].
Proof.
  split; [|split; [|split; [|split; [|split]]]].
  - repeat constructor; intros k Hk; cbn [In] in Hk; repeat (destruct Hk as [<-|Hk]; [reflexivity|]); destruct Hk.
  - unfold ex_recs. cbn [map].
    assert (G : forall rc, values sp (lit "Type") (rc_rest rc) = [] -> values sp (lit "Subtag") (rc_rest rc) = [] ->
      says sp (lit "Type") (lit "Type: " ++ rc_type rc) = Some (rc_type rc) ->
      match rc_sub rc with Some s => says sp (lit "Subtag") (lit "Subtag: " ++ s) = Some s | None => True end ->
      rec_lines sp rc (ex_block rc)).
    { intros rc A B C D. split; [exact A|]. split; [exact B|]. exists (lit "Type: " ++ rc_type rc). split; [exact C|].
      unfold ex_block. destruct (rc_sub rc) as [s|]; [|reflexivity]. eexists. split; [exact D | reflexivity]. }
    repeat (apply Forall2_cons; [apply G; try exact I; vm_compute; reflexivity|]). apply Forall2_nil.
  - unfold ex_recs. repeat (apply Forall_cons; [intros V; first [discriminate V | split; [discriminate | reflexivity]]|]). apply Forall_nil.
  - intros before rc after E V HN.
    destruct before as [|r1 before]; [injection E as <- <-; discriminate V|].
    destruct before as [|r2 before]; [injection E as <- <- <-; discriminate V|].
    destruct before as [|r3 before]; [injection E as <- <- <- <-; discriminate V|].
    destruct before as [|r4 before]; [injection E as <- <- <- <- <-; discriminate V|].
    destruct before as [|r5 before]; [injection E as <- <- <- <- <- <-; discriminate|].
    exfalso. apply (HN r5); [cbn [In]; tauto|]. injection E as _ _ _ _ <- _. reflexivity.
  - intros rcs1 last E. apply (f_equal (fun l => hd_error (rev l))) in E. rewrite rev_app_distr in E.
    cbn [rev app hd_error ex_recs] in E. injection E as <-. discriminate.
  - eexists. split; [vm_compute; reflexivity|]. split; [vm_compute; reflexivity|]. split; vm_compute; reflexivity.
Qed.

(** The hypothesis about the first variant holds of the file in the package by luck of the
    alphabet only; the same records in another order are not read. *)
Theorem C70_order_refuted :
  exists rcs1 rcs2, Permutation rcs1 rcs2 /\
    (exists b, read_iana sp (fun l => l) (mkReg [] (fun _ => newtag None None None None None)) 0 (concat (map ex_block rcs1)) = Ok b) /\
    read_iana sp (fun l => l) (mkReg [] (fun _ => newtag None None None None None)) 0 (concat (map ex_block rcs2)) = Raise NameError.
Proof.
  exists [mkRec (lit "variant") (Some (lit "1606nict")) [lit "Prefix: frm"]; mkRec (lit "variant") (Some (lit "fonipa")) []; mkRec (lit "redundant") None []],
         [mkRec (lit "variant") (Some (lit "fonipa")) []; mkRec (lit "variant") (Some (lit "1606nict")) [lit "Prefix: frm"]; mkRec (lit "redundant") None []].
  split; [apply perm_swap|]. split; [eexists; vm_compute; reflexivity | vm_compute; reflexivity].
Qed.

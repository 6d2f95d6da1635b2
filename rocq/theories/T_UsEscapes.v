(** Property C97: what the escapes of a UnicodeSet and of a keyboard string denote. *)
From Verif Require Import Py PyFacts M_UnicodeSets P_UnicodeSets P_UsEscapes T_UnicodeSets.
Open Scope N_scope.

(** * Specification *)

(** the ways of writing one character, and a space that only separates *)
Inductive piece :=
  | Lit (c : N)          (* the character itself *)
  | Back (c : N)         (* \c *)
  | Hex2 (h : pystr)     (* \xHH *)
  | Hex4 (h : pystr)     (* \uHHHH *)
  | Hex8 (h : pystr)     (* \UHHHHHHHH *)
  | HexX (h : pystr)     (* \ux{H...} *)
  | Gap.                 (* a space *)
Definition written (p : piece) : pystr :=
  match p with
  | Lit c => [c]
  | Back c => lit "\" ++ [c]
  | Hex2 h => lit "\x" ++ h
  | Hex4 h => lit "\u" ++ h
  | Hex8 h => lit "\U" ++ h
  | HexX h => lit "\ux{" ++ h ++ lit "}"
  | Gap => lit " "
  end.
(** the members of a class: one character, a string in braces, the braced hex form *)
Inductive item :=
  | One (p : piece)
  | Str (ps : list piece)   (* {...} *)
  | HexB (h : pystr).       (* \u{H...} *)
Definition iwritten (i : item) : pystr :=
  match i with
  | One p => written p
  | Str ps => lit "{" ++ concat (map written ps) ++ lit "}"
  | HexB h => lit "\u{" ++ h ++ lit "}"
  end.

(** the letters with a meaning of their own after a backslash *)
Definition control_letters : list (N * N) :=
  [(97, 7); (98, 8); (116, 9); (110, 10); (118, 11); (102, 12); (114, 13)].
Definition after_backslash (c : N) : N :=
  match find (fun e => N.eqb (fst e) c) control_letters with Some e => snd e | None => c end.
Definition denotes (p : piece) : pystr :=
  match p with
  | Lit c => [c]
  | Back c => [after_backslash c]
  | Hex2 h | Hex4 h | Hex8 h | HexX h => [hexnum h]
  | Gap => []
  end.
(** the member an item stands for; a separating space stands for none *)
Definition member (i : item) : option pystr :=
  match i with
  | One Gap => None
  | One p => Some (denotes p)
  | Str ps => Some (concat (map denotes ps))
  | HexB h => Some [hexnum h]
  end.

Definition hex_digits (h : pystr) : Prop := h <> [] /\ forallb is_hex h = true.
Definition code_point (n : N) : Prop := n < 1114112.
Section Ok.
  Variable uni_digit : N -> bool.
  (** a piece the notation has: after a backslash neither a digit nor a letter of the hex
      forms nor a space; a hex number is a code point other than the space *)
  Definition well_written (p : piece) : Prop :=
    match p with
    | Lit c => ~ spec_syntax c /\ c <> 32
    | Back c => c <> 32 /\ ~ In c (lit "uUx") /\ ~ In c (lit "0123456789") /\ (128 <= c -> uni_digit c = false)
    | Hex2 h => length h = 2%nat /\ hex_digits h /\ hexnum h <> 32
    | Hex4 h => length h = 4%nat /\ hex_digits h /\ hexnum h <> 32
    | Hex8 h => length h = 8%nat /\ hex_digits h /\ hexnum h <> 32 /\ code_point (hexnum h)
    | HexX h => hex_digits h /\ hexnum h <> 32 /\ code_point (hexnum h)
    | Gap => True
    end.
  Definition not_gap (p : piece) : bool := match p with Gap => false | _ => true end.
  Definition well_formed (i : item) : Prop :=
    match i with
    | One p => well_written p
    | Str ps => Forall well_written ps /\
                forall q p, filter not_gap ps = q ++ [p] -> denotes p <> lit "\"
    | HexB h => hex_digits h /\ hexnum h <> 32 /\ hexnum h <> 92 /\ code_point (hexnum h)
    end.
End Ok.
(** the pieces in a row, [None] for a brace between them *)
Definition row (i : item) : list (option piece) :=
  match i with
  | One Gap => []
  | One p => [Some p]
  | Str ps => None :: map Some (filter not_gap ps) ++ [None]
  | HexB _ => [None]
  end.
(** no piece for a backslash stands directly before one for u, U, x or a closing bracket *)
Definition separated (l : list item) : Prop :=
  forall a p q b, flat_map row l = a ++ Some p :: Some q :: b ->
    denotes p = lit "\" -> denotes q <> lit "u" /\ denotes q <> lit "U" /\ denotes q <> lit "x" /\ denotes q <> lit "]".

(** * Proofs *)
Definition ptok (p : piece) : tok :=
  match p with
  | Lit c => TRaw c
  | Back c => TBack c
  | Hex2 h => THex (92 :: 120 :: h) (hexnum h)
  | Hex4 h => THex (92 :: 117 :: h) (hexnum h)
  | Hex8 h => THex (92 :: 85 :: h) (hexnum h)
  | HexX h => THex (92 :: 117 :: 120 :: 123 :: h ++ [125]) (hexnum h)
  | Gap => TRaw 32
  end.
Inductive un := UP (p : piece) | UO | UC | UH (h : pystr).
Definition uns (i : item) : list un :=
  match i with One p => [UP p] | Str ps => UO :: map UP ps ++ [UC] | HexB h => [UH h] end.
Definition utok (u : un) : tok := match u with UP p => ptok p | UO => TRaw 123 | UC => TRaw 125 | UH h => TUB h end.
Definition uproj (u : un) : list (option piece) :=
  match u with UP Gap => [] | UP p => [Some p] | _ => [None] end.

Lemma ptok_text p : ttext (ptok p) = written p.
Proof. destruct p; reflexivity. Qed.
Lemma utok_text i : concat (map ttext (map utok (uns i))) = iwritten i.
Proof.
  destruct i as [p|ps|h]; cbn [uns map utok concat iwritten].
  - rewrite app_nil_r. apply ptok_text.
  - change (ttext (TRaw 123)) with (lit "{"). f_equal.
    rewrite !map_app, concat_app. f_equal. 
    induction ps as [|p ps IH]; [reflexivity|]. cbn [map concat utok]. now rewrite IH, ptok_text.
  - rewrite app_nil_r. reflexivity.
Qed.
Lemma utoks_text l : concat (map ttext (map utok (flat_map uns l))) = concat (map iwritten l).
Proof.
  induction l as [|i l IH]; [reflexivity|]. cbn [flat_map map concat].
  now rewrite !map_app, concat_app, IH, utok_text.
Qed.
Lemma row_uns i : row i = flat_map uproj (uns i).
Proof.
  destruct i as [p|ps|h]; cbn [row uns flat_map]; [destruct p; reflexivity| |reflexivity].
  cbn [uproj app]. f_equal. rewrite flat_map_app. f_equal.
  induction ps as [|p ps IH]; [reflexivity|]. cbn [filter map flat_map].
  destruct p; cbn [not_gap map app uproj]; now rewrite IH.
Qed.
Lemma rows_uns l : flat_map row l = flat_map uproj (flat_map uns l).
Proof.
  induction l as [|i l IH]; [reflexivity|]. cbn [flat_map]. now rewrite flat_map_app, IH, row_uns.
Qed.

(** ** separation, read along the row *)
Definition den92 (o : option piece) : bool := match o with Some p => streq (denotes p) [92] | None => false end.
Definition bad (o : option piece) : Prop :=
  match o with Some q => ~ (denotes q <> lit "u" /\ denotes q <> lit "U" /\ denotes q <> lit "x" /\ denotes q <> lit "]") | None => False end.
Fixpoint usep (prev : bool) (l : list (option piece)) : Prop :=
  match l with [] => True | o :: l' => (prev = true -> ~ bad o) /\ usep (den92 o) l' end.
Lemma usep_of l : (forall a p q b, l = a ++ Some p :: Some q :: b ->
    denotes p = lit "\" -> denotes q <> lit "u" /\ denotes q <> lit "U" /\ denotes q <> lit "x" /\ denotes q <> lit "]") ->
  usep false l.
Proof.
  intros H.
  assert (G : forall l prev, (prev = true -> match l with o :: _ => ~ bad o | [] => True end) ->
    (forall a p q b, l = a ++ Some p :: Some q :: b ->
    denotes p = lit "\" -> denotes q <> lit "u" /\ denotes q <> lit "U" /\ denotes q <> lit "x" /\ denotes q <> lit "]") ->
    usep prev l).
  2:{ apply G; [discriminate|exact H]. }
  clear. induction l as [|o l IH]; intros prev Hp H; [exact I|]. split; [exact Hp|].
  apply IH.
  - intros Ho. destruct l as [|o' l]; [exact I|]. destruct o as [p|]; [|discriminate]. cbn in Ho.
    destruct (streq_spec (denotes p) [92]) as [Hd|]; [|discriminate].
    destruct o' as [q|]; [|cbn; tauto]. cbn. intros F. apply F. apply (H [] p q l); [reflexivity|exact Hd].
  - intros a p q b E. apply (H (o :: a) p q b). now rewrite E.
Qed.

  Lemma uUx_of c : ~ In c (lit "uUx") -> ~ uUx c.
  Proof. cbn. unfold uUx. intuition congruence. Qed.
  Lemma hexbound h n : (forallb is_hex h = true) -> length h = n -> hexnum h < 16 ^ N.of_nat n.
  Proof.
    intros Hh <-. unfold hexnum.
    assert (G : forall h a, forallb is_hex h = true ->
      fold_left (fun a c => 16 * a + hexval c) h a < (a + 1) * 16 ^ N.of_nat (length h)).
    { clear. induction h as [|c h IH]; intros a H.
      - cbn. lia.
      - cbn in H. apply andb_prop in H as [Hc Hh]. cbn [fold_left length].
        eapply N.lt_le_trans; [apply IH; exact Hh|].
        replace (N.of_nat (S (length h))) with (N.succ (N.of_nat (length h))) by lia.
        rewrite N.pow_succ_r', N.mul_assoc. apply N.mul_le_mono_r.
        assert (hexval c < 16).
        { apply is_hex_cases in Hc. unfold hexval, is_digit.
          destruct (N.leb_spec 48 c), (N.leb_spec c 57), (N.leb_spec 65 c), (N.leb_spec c 70); cbn; lia. }
        lia. }
    specialize (G h 0 Hh). lia.
  Qed.
  Lemma hd_hex h r : forallb is_hex h = true -> h <> [] -> forall t', h ++ r <> 120 :: 123 :: t'.
  Proof.
    intros Hh Hne t' E. destruct h as [|c h]; [congruence|]. cbn in E. injection E as -> _. cbn in Hh. discriminate.
  Qed.
  Definition hexly (p : piece) : Prop :=
    match p with
    | Hex2 h => length h = 2%nat /\ hex_digits h
    | Hex4 h => length h = 4%nat /\ hex_digits h
    | Hex8 h => length h = 8%nat /\ hex_digits h /\ code_point (hexnum h)
    | HexX h => hex_digits h /\ code_point (hexnum h)
    | _ => False
    end.
  Lemma ptok_ok_gen p : hexly p -> tok_ok (ptok p).
  Proof.
    destruct p as [c|c|h|h|h|h|]; cbn [hexly ptok tok_ok]; try contradiction.
    - intros (Hl & [Hne Hh]). split; [discriminate|]. split.
      { pose proof (hexbound h 2 Hh Hl) as B. change (16 ^ N.of_nat 2) with 256 in B. lia. }
      split; [reflexivity|]. intros r. rewrite <- !app_comm_cons, hexesc_at_x, take_hex_app by assumption.
      cbn [length]. now rewrite Hl.
    - intros (Hl & [Hne Hh]). split; [discriminate|]. split.
      { pose proof (hexbound h 4 Hh Hl) as B. change (16 ^ N.of_nat 4) with 65536 in B. lia. }
      split; [reflexivity|]. intros r. rewrite <- !app_comm_cons, hexesc_at_u, take_hex_app by (try assumption; now apply hd_hex).
      cbn [length]. now rewrite Hl.
    - intros (Hl & [Hne Hh] & Hc). split; [discriminate|]. split; [exact Hc|].
      split; [reflexivity|]. intros r. rewrite <- !app_comm_cons, hexesc_at_U, take_hex_app by assumption.
      cbn [length]. now rewrite Hl.
    - intros ([Hne Hh] & Hc). split; [discriminate|]. split; [exact Hc|].
      split; [reflexivity|]. intros r. rewrite <- !app_comm_cons, <- app_assoc. cbn [app]. unfold hexesc_at.
      rewrite braced_hex_app by assumption. f_equal. f_equal. cbn [length]. rewrite app_length. cbn. lia.
  Qed.
  Lemma after_back_simple c : after_backslash c = simpleesc c.
  Proof.
    unfold after_backslash, control_letters. cbn [find fst snd].
    destruct (N.eqb_spec 97 c) as [<-|]; [reflexivity|].
    destruct (N.eqb_spec 98 c) as [<-|]; [reflexivity|].
    destruct (N.eqb_spec 116 c) as [<-|]; [reflexivity|].
    destruct (N.eqb_spec 110 c) as [<-|]; [reflexivity|].
    destruct (N.eqb_spec 118 c) as [<-|]; [reflexivity|].
    destruct (N.eqb_spec 102 c) as [<-|]; [reflexivity|].
    destruct (N.eqb_spec 114 c) as [<-|]; [reflexivity|].
    cbn. destruct c as [|p]; [reflexivity|].
    repeat (try reflexivity; destruct p as [p|p|]; try reflexivity; try congruence).
  Qed.
  Lemma simpleesc_92 c : simpleesc c = 92 -> c = 92.
  Proof.
    rewrite <- after_back_simple. unfold after_backslash.
    destruct (find _ control_letters) as [e|] eqn:E; [|trivial].
    apply find_some in E as [E _]. cbn in E. intros F. repeat destruct E as [<-|E]; try discriminate; contradiction.
  Qed.
  Lemma denotes_tval p : p <> Gap -> denotes p = tval (ptok p).
  Proof. destruct p; intros H; try reflexivity; [|congruence]. cbn. now rewrite after_back_simple. Qed.

Section Main.
  Variable ud : N -> bool.

  Lemma ptok_ok p : well_written ud p -> tok_ok (ptok p).
  Proof.
    destruct p as [c|c|h|h|h|h|]; cbn [well_written]; intros H.
    - cbn. intros ->. apply (proj1 H). vm_compute. tauto.
    - cbn. apply uUx_of. apply H.
    - apply ptok_ok_gen. cbn. tauto.
    - apply ptok_ok_gen. cbn. tauto.
    - apply ptok_ok_gen. cbn. tauto.
    - apply ptok_ok_gen. cbn. tauto.
    - cbn. lia.
  Qed.
  Definition un_ok (u : un) : Prop := match u with UP p => well_written ud p | UH h => well_formed ud (HexB h) | _ => True end.
  Lemma utok_ok u : un_ok u -> tok_ok (utok u).
  Proof.
    destruct u as [p| | |h]; cbn [utok].
    - apply ptok_ok.
    - cbn. lia.
    - cbn. lia.
    - cbn. intros ([H1 H2] & _ & _ & H3). auto.
  Qed.
  Lemma uns_ok l : Forall (well_formed ud) l -> Forall un_ok (flat_map uns l).
  Proof.
    intros H. apply Forall_flat_map. eapply Forall_impl; [|exact H].
    intros [p|ps|h] Hi; cbn [uns].
    - now constructor.
    - constructor; [exact I|]. apply Forall_app. split; [|repeat constructor]. apply Forall_map. apply Hi.
    - now constructor.
  Qed.

  Lemma back_den p : back92 (ptok p) = true -> p <> Gap -> denotes p = [92].
  Proof.
    destruct p; cbn; intros E H; try discriminate; apply N.eqb_eq in E; now rewrite E.
  Qed.
  Lemma tsep_uns l : forall prev prev', Forall un_ok l -> usep prev (flat_map uproj l) -> (prev' = true -> prev = true) ->
    tsep prev' (map utok l).
  Proof.
    induction l as [|u l IH]; intros prev prev' Ho Hs Hp; [exact I|].
    inversion Ho as [|? ? Hu Hl]; subst. cbn [map tsep flat_map] in *.
    destruct u as [p| | |h].
    - destruct (not_gap p) eqn:Eg.
      + assert (Hng : p <> Gap) by (intros ->; discriminate).
        assert (Hs' : usep prev (Some p :: flat_map uproj l)) by (destruct p; try discriminate Eg; exact Hs).
        destruct Hs' as [Hb Hs']. split.
        * intros Hpt Hui. apply (Hb (Hp Hpt)). cbn. intros (A & B & C & _).
          destruct p as [c|c|h|h|h|h|]; cbn in Hui; try contradiction;
            destruct Hui as [F|[F|F]]; solve [apply A; cbn; now rewrite F|apply B; cbn; now rewrite F|apply C; cbn; now rewrite F].
        * apply (IH (den92 (Some p))); auto. intros E. cbn. apply back_den in E; [|exact Hng]. rewrite E. reflexivity.
      + destruct p; try discriminate. cbn [utok ptok] in *. cbn [uproj app] in Hs. split.
        * intros _. cbn. unfold uUx. lia.
        * apply (IH prev); auto. discriminate.
    - cbn in Hs |- *. destruct Hs as [_ Hs]. split; [unfold uUx; lia|]. now apply (IH false).
    - cbn in Hs |- *. destruct Hs as [_ Hs]. split; [unfold uUx; lia|]. now apply (IH false).
    - cbn in Hs |- *. destruct Hs as [_ Hs]. split; [tauto|]. now apply (IH false).
  Qed.

  (** ** the items left for the parser *)
  Definition encc (v : N) : core := if inchars v us_syntax then CB v else CL v.
  Definition pcore (p : piece) : list core :=
    match p with
    | Lit c => [CL c]
    | Back c => [CB c]
    | Hex2 h | Hex4 h | Hex8 h | HexX h => [encc (hexnum h)]
    | Gap => []
    end.
  Definition icore (i : item) : list citem :=
    match i with
    | One p => map C1 (pcore p)
    | Str ps => [CS (flat_map pcore ps)]
    | HexB h => [CS [encc (hexnum h)]]
    end.

  Lemma encc_text v : ctext (encc v) = escapechar v.
  Proof. unfold encc, escapechar. destruct (inchars v us_syntax); reflexivity. Qed.
  Lemma encc_val v : cval (encc v) = v.
  Proof. unfold encc. destruct (inchars v us_syntax) eqn:E; [|reflexivity]. now apply simpleesc_syntax. Qed.
  Lemma filter_esc v : v <> 32 -> filter nosp (escapechar v) = escapechar v.
  Proof.
    intros H. apply filter_id. unfold escapechar, nosp. destruct (inchars v us_syntax); cbn; intros x Hx;
      apply negb_true_iff, N.eqb_neq; intuition congruence.
  Qed.
  Lemma piece_filter p : well_written ud p ->
    filter nosp (concat (map ttext (s2 (s1 (ptok p))))) = concat (map ctext (pcore p)).
  Proof.
    assert (G : forall v, v <> 32 -> filter nosp (concat (map ttext (s2 (enc1 v)))) = concat (map ctext [encc v])).
    { intros v Hv. cbn [map concat]. rewrite app_nil_r, encc_text, <- (filter_esc v Hv). f_equal.
      rewrite <- enc1_text. unfold enc1. destruct (inchars v us_syntax); reflexivity. }
    destruct p as [c|c|h|h|h|h|]; cbn [ptok s1 pcore]; intros H.
    - destruct H as [_ H]. cbn. unfold nosp. apply N.eqb_neq in H. rewrite H. reflexivity.
    - destruct H as [H _]. cbn. unfold nosp. apply N.eqb_neq in H. rewrite H. reflexivity.
    - apply G. apply H.
    - apply G. apply H.
    - apply G. apply H.
    - apply G. apply H.
    - reflexivity.
  Qed.
  Lemma pieces_filter ps : Forall (well_written ud) ps ->
    filter nosp (concat (map ttext (flat_map s2 (map s1 (map ptok ps))))) = concat (map ctext (flat_map pcore ps)).
  Proof.
    induction 1 as [|p ps Hp Hps IH]; [reflexivity|]. cbn [map flat_map].
    rewrite map_app, concat_app, filter_app, IH, piece_filter by exact Hp.
    now rewrite map_app, concat_app.
  Qed.
  Lemma item_filter i : well_formed ud i ->
    filter nosp (concat (map ttext (flat_map s2 (map s1 (map utok (uns i)))))) = concat (map citext (icore i)).
  Proof.
    destruct i as [p|ps|h]; cbn [uns icore]; intros H.
    - cbn [map utok flat_map]. rewrite app_nil_r, piece_filter by exact H.
      rewrite map_map. reflexivity.
    - cbn [map utok flat_map s1 s2 app concat citext]. rewrite !map_app, flat_map_app, map_app, concat_app.
      change (ttext (TRaw 123)) with [123]. rewrite !filter_app.
      rewrite app_nil_r. change (filter nosp [123]) with [123]. cbn [app]. f_equal. f_equal.
      replace (map utok (map UP ps)) with (map ptok ps) by (now rewrite map_map). apply pieces_filter, H.
    - cbn [map utok s1 flat_map s2 concat citext app]. rewrite enc1_text. rewrite !app_nil_r.
      destruct H as (_ & Hv & _). change (ttext (TRaw 123)) with [123]. change (ttext (TRaw 125)) with [125].
      rewrite !filter_app, (filter_esc _ Hv), encc_text. reflexivity.
  Qed.
  Lemma items_filter l : Forall (well_formed ud) l ->
    filter nosp (concat (map ttext (flat_map s2 (map s1 (map utok (flat_map uns l)))))) = concat (map citext (flat_map icore l)).
  Proof.
    induction 1 as [|i l Hi Hl IH]; [reflexivity|]. cbn [flat_map].
    rewrite !map_app, flat_map_app, map_app, concat_app, filter_app, IH, item_filter by exact Hi.
    now rewrite concat_app.
  Qed.

  Lemma core_ok_pcore p : well_written ud p -> Forall (core_ok ud) (pcore p).
  Proof.
    assert (G : forall v, core_ok ud (encc v)).
    { intros v. unfold encc. destruct (inchars v us_syntax) eqn:E; cbn; [|exact E]. now apply intable_syntax. }
    destruct p as [c|c|h|h|h|h|]; cbn [pcore]; intros H; constructor; auto.
    - unfold core_ok. apply inchars_false. apply H.
    - unfold core_ok. destruct H as (_ & _ & Hd & Hu). unfold intable. apply orb_false_intro.
      + unfold is_digit. destruct (N.leb_spec 48 c), (N.leb_spec c 57); try reflexivity.
        exfalso. apply Hd. cbn. lia.
      + destruct (N.leb_spec 128 c); [now apply Hu|reflexivity].
  Qed.
  Lemma cores_ok ps : Forall (well_written ud) ps -> Forall (core_ok ud) (flat_map pcore ps).
  Proof. intros H. apply Forall_flat_map. eapply Forall_impl; [|exact H]. apply core_ok_pcore. Qed.
  Lemma pcore_one p : not_gap p = true -> exists k, pcore p = [k] /\ [cval k] = denotes p /\ (cback k = true -> denotes p = [92]) /\
    (mbrk (MK k) -> denotes p = [93]).
  Proof.
    assert (G : forall v, (cback (encc v) = true -> v = 92) /\ (mbrk (MK (encc v)) -> v = 93)).
    { intros v. unfold encc. destruct (inchars v us_syntax) eqn:E; cbn; [|split; [discriminate|tauto]].
      split; [apply N.eqb_eq|]. destruct (N.eq_dec v 93) as [->|Hv]; [trivial|].
      apply syntax_cases in E. repeat destruct E as [->|E]; subst; tauto. }
    destruct p as [c|c|h|h|h|h|]; cbn [not_gap pcore]; intros H; try discriminate; eexists; (split; [reflexivity|]);
      cbn [denotes]; rewrite ?encc_val;
      try (split; [reflexivity|]; destruct (G (hexnum h)) as [G1 G2]; split; intros F; [rewrite G1|rewrite G2]; auto; fail).
    - split; [reflexivity|]. cbn. split; [discriminate|tauto].
    - cbn [cval]. rewrite after_back_simple. split; [reflexivity|]. cbn. split.
      + intros E. apply N.eqb_eq in E. now subst.
      + destruct (N.eq_dec c 93) as [->|Hc]; [reflexivity|]. intros F. exfalso.
        destruct c as [|q]; [exact F|].
        repeat (try exact F; destruct q as [q|q|]; try exact F; try congruence).
  Qed.
  Lemma filter_pcore ps : flat_map pcore ps = flat_map pcore (filter not_gap ps).
  Proof. induction ps as [|p ps IH]; [reflexivity|]. cbn. destruct p; cbn; now rewrite IH. Qed.
  Lemma icore_ok i : well_formed ud i -> Forall (citem_ok ud) (icore i).
  Proof.
    destruct i as [p|ps|h]; cbn [icore well_formed]; intros H.
    - apply Forall_map. apply core_ok_pcore in H. exact H.
    - destruct H as [H HL]. constructor; [|constructor]. split; [now apply cores_ok|].
      rewrite filter_pcore. destruct (filter not_gap ps) as [|p0 l0] eqn:E using rev_ind; [reflexivity|].
      clear IHl0. rewrite flat_map_app. cbn [flat_map]. rewrite app_nil_r.
      assert (Hg : not_gap p0 = true).
      { assert (Hin : In p0 (filter not_gap ps)) by (rewrite E; apply in_or_app; right; now left).
        now apply filter_In in Hin. }
      destruct (pcore_one p0 Hg) as (k & -> & _ & Hk & _).
      unfold lastback. rewrite rev_app_distr. cbn. destruct (cback k); [|reflexivity].
      exfalso. apply (HL _ _ eq_refl). now apply Hk.
    - destruct H as (_ & _ & H92 & _). constructor; [|constructor]. split.
      + constructor; [|constructor]. unfold encc. destruct (inchars (hexnum h) us_syntax) eqn:E; cbn; [|exact E]. now apply intable_syntax.
      + unfold lastback. cbn. unfold encc. destruct (inchars (hexnum h) us_syntax); cbn; [|reflexivity].
        now apply N.eqb_neq.
  Qed.
  Lemma icores_ok l : Forall (well_formed ud) l -> Forall (citem_ok ud) (flat_map icore l).
  Proof. intros H. apply Forall_flat_map. eapply Forall_impl; [|exact H]. apply icore_ok. Qed.

  (** separation of what is left *)
  Definition umark (u : un) : list mark :=
    match u with UP p => map MK (pcore p) | UO => [MO] | UC => [MC] | UH h => [MO; MK (encc (hexnum h)); MC] end.
  Lemma marks_uns i : flat_map marks (icore i) = flat_map umark (uns i).
  Proof.
    destruct i as [p|ps|h]; cbn [icore uns flat_map umark marks].
    - rewrite app_nil_r. destruct p; reflexivity.
    - rewrite app_nil_r. cbn [app]. f_equal. rewrite flat_map_app. f_equal.
      induction ps as [|p ps IH]; [reflexivity|]. cbn [flat_map map umark]. now rewrite map_app, IH.
    - reflexivity.
  Qed.
  Lemma marks_unss l : flat_map marks (flat_map icore l) = flat_map umark (flat_map uns l).
  Proof.
    induction l as [|i l IH]; [reflexivity|]. cbn [flat_map]. now rewrite !flat_map_app, IH, marks_uns.
  Qed.
  Lemma msep_uns l : forall prev prev', usep prev (flat_map uproj l) -> (prev' = true -> prev = true) ->
    msep prev' (flat_map umark l).
  Proof.
    induction l as [|u l IH]; intros prev prev' Hs Hp; [exact I|].
    cbn [flat_map] in *. destruct u as [p| | |h].
    - destruct (not_gap p) eqn:Eg.
      + assert (Hs' : usep prev (Some p :: flat_map uproj l)) by (destruct p; try discriminate Eg; exact Hs).
        destruct Hs' as [Hb Hs']. cbn [umark]. destruct (pcore_one p Eg) as (k & -> & _ & Hk & Hm).
        cbn [map app msep]. split.
        * intros Hpt F. apply (Hb (Hp Hpt)). cbn. intros (_ & _ & _ & D). now apply D, Hm.
        * apply (IH (den92 (Some p))); auto. intros E. cbn in E |- *. rewrite (Hk E). reflexivity.
      + destruct p; try discriminate. cbn [umark pcore map app uproj] in *. now apply (IH prev).
    - cbn in Hs |- *. destruct Hs as [_ Hs]. split; [tauto|]. now apply (IH false).
    - cbn in Hs |- *. destruct Hs as [_ Hs]. split; [tauto|]. now apply (IH false).
    - cbn [umark app msep uproj usep] in Hs |- *. destruct Hs as [_ Hs]. split; [cbn; tauto|]. split; [discriminate|].
      split; [cbn; tauto|]. now apply (IH false).
  Qed.

  Lemma cival_member i : map cival (icore i) = match member i with Some m => [m] | None => [] end.
  Proof.
    assert (G : forall ps, map cval (flat_map pcore ps) = concat (map denotes ps)).
    { induction ps as [|p ps IH]; [reflexivity|]. cbn [flat_map map concat]. rewrite map_app, IH. f_equal.
      destruct (not_gap p) eqn:E; [|destruct p; try discriminate; reflexivity].
      destruct (pcore_one p E) as (k & -> & H & _). exact H. }
    destruct i as [p|ps|h].
    - cbn [icore member]. destruct (not_gap p) eqn:E; [|destruct p; try discriminate; reflexivity].
      destruct (pcore_one p E) as (k & Hk & H & _). rewrite Hk. cbn [map cival]. rewrite H.
      destruct p; try reflexivity. discriminate.
    - cbn [icore member map cival]. now rewrite G.
    - cbn [icore member map cival]. now rewrite encc_val.
  Qed.
  Lemma in_members l x : In x (map cival (flat_map icore l)) <-> exists i, In i l /\ member i = Some x.
  Proof.
    induction l as [|i l IH]; cbn [flat_map map]; [cbn; split; [tauto|intros (? & [] & _)]|].
    rewrite map_app, in_app_iff, IH, cival_member. split.
    - intros [H|(j & Hj & E)]; [|exists j; cbn; auto].
      destruct (member i) as [m|] eqn:E; cbn in H; [|contradiction]. destruct H as [->|[]]. exists i. cbn. auto.
    - intros (j & [->|Hj] & E); [left; rewrite E; now left|right; eauto].
  Qed.
End Main.

(** * C97 *)

(** every member of a class, however it is written *)
Theorem C97_class :
  forall (uni_digit : N -> bool) (l : list item),
    Forall (well_formed uni_digit) l -> separated l ->
    exists r, us2list uni_digit (lit "[" ++ concat (map iwritten l) ++ lit "]") = Ok r /\ NoDup r /\
      forall x, In x r <-> exists i, In i l /\ member i = Some x.
Proof.
  intros ud l Hl Hs. exists (fold_left sadd (map cival (flat_map icore l)) []). split; [|split].
  - assert (Hu : usep false (flat_map uproj (flat_map uns l))).
    { rewrite <- rows_uns. apply usep_of. exact Hs. }
    pose proof (uns_ok ud l Hl) as Ho.
    pose proof (tsep_uns ud _ false false Ho Hu ltac:(auto)) as Ht.
    assert (Ho' : Forall tok_ok (map utok (flat_map uns l))).
    { apply Forall_map. eapply Forall_impl; [|exact Ho]. apply utok_ok. }
    unfold us2list, us_parse. fold nosp.
    set (B := concat (map iwritten l)).
    set (B' := concat (map ttext (flat_map s2 (map s1 (map utok (flat_map uns l)))))).
    set (ts := TRaw 91 :: map utok (flat_map uns l) ++ [TRaw 93]).
    assert (Hts : Forall tok_ok ts).
    { unfold ts. constructor; [cbn; lia|]. apply Forall_app. split; [exact Ho'|]. repeat constructor. cbn. lia. }
    assert (Hss : tsep false ts).
    { unfold ts. cbn [tsep back92]. split; [discriminate|].
      clear -Ht. generalize false Ht. clear. generalize (map utok (flat_map uns l)) as q.
      induction q as [|t q IH]; intros b H; cbn [app tsep] in *.
      - split; [|exact I]. intros _. cbn. unfold uUx. lia.
      - destruct H as [H1 H2]. split; [exact H1|]. now apply IH. }
    pose proof (both_subs ts Hts Hss) as E.
    replace (concat (map ttext ts)) with (lit "[" ++ B ++ lit "]") in E.
    2:{ unfold ts, B. cbn [map concat]. rewrite map_app, concat_app, utoks_text. reflexivity. }
    replace (concat (map ttext (flat_map s2 (map s1 ts)))) with (91 :: B' ++ [93]) in E.
    2:{ unfold ts, B'. cbn [map s1 flat_map s2 concat app ttext]. f_equal.
        now rewrite !map_app, flat_map_app, map_app, concat_app. }
    destruct (hexescre_sub (lit "[" ++ B ++ lit "]")) as [a|x] eqn:Ea; cbn [bind] in E |- *; [|discriminate].
    rewrite E. cbn [bind].
    replace (filter nosp (91 :: B' ++ [93])) with (91 :: concat (map citext (flat_map icore l)) ++ [93]).
    2:{ rewrite <- (items_filter ud l Hl). fold B'. cbn [filter]. change (nosp 91) with true. cbn iota. rewrite filter_app. reflexivity. }
    apply us2list_citems; [now apply icores_ok|]. rewrite marks_unss. apply (msep_uns ud _ false); [exact Hu|auto].
  - apply fold_sadd_NoDup. constructor.
  - intros x. rewrite in_fold_sadd, (in_members ud). cbn. tauto.
Qed.
Print Assumptions C97_class.
Example C97_class_case : let l := [One (Back 97); One Gap; One (Hex4 (lit "0041")); Str [Back 123; Lit 98; Hex2 (lit "5c"); Back 110];
    HexB (lit "1F600"); One (HexX (lit "5d")); One (Back 92)] in
  concat (map iwritten l) = lit "\a \u0041{\{b\x5c\n}\u{1F600}\ux{5d}\\" /\
  (forall ud, Forall (well_formed ud) l) /\ separated l /\
  map member l = [Some [7]; None; Some (lit "A"); Some (lit "{b\" ++ [10]); Some [128512]; Some (lit "]"); Some (lit "\")].
Proof.
  cbn [concat]. split; [reflexivity|]. split; [|split].
  - intros ud. unfold hex_digits, code_point.
    repeat (constructor || (intros F; cbn in F; intuition discriminate) || reflexivity || (cbn; intuition discriminate) || lia).
    intros q p E.
    assert (p = Back 110) as ->; [|discriminate].
    apply (f_equal (fun x => last x Gap)) in E. rewrite last_last in E. exact (eq_sym E).
  - intros a p q b E Hd.
    cbn [flat_map row app filter not_gap map] in E.
    repeat (destruct a as [|? a]; cbn [app] in E;
      [first [discriminate E | injection E as <- <- _; vm_compute in Hd; first [discriminate Hd | repeat split; vm_compute; discriminate]]|
       first [discriminate E | injection E as _ E]]).
  - reflexivity.
Qed.

(** keyboard strings: every character stands for itself but the backslash, and the space too *)
Definition plainly_written (p : piece) : Prop :=
  match p with
  | Lit c => c <> 92
  | Back c => ~ In c (lit "uUx") /\ ~ In c (lit "0123456789")
  | Hex2 h => length h = 2%nat /\ hex_digits h
  | Hex4 h => length h = 4%nat /\ hex_digits h
  | Hex8 h => length h = 8%nat /\ hex_digits h /\ code_point (hexnum h)
  | HexX h => hex_digits h /\ code_point (hexnum h)
  | Gap => True
  end.
Definition says (p : piece) : pystr := match p with Gap => lit " " | _ => denotes p end.
Theorem C97_string : forall ps,
  Forall plainly_written ps ->
  (forall a p q b, ps = a ++ p :: q :: b -> says p = lit "\" ->
     says q <> lit "u" /\ says q <> lit "U" /\ says q <> lit "x") ->
  struni (concat (map written ps)) = Ok (concat (map says ps)).
Proof.
  intros ps Ho Hs.
  replace (concat (map written ps)) with (concat (map ttext (map ptok ps))).
  2:{ rewrite map_map. f_equal. apply map_ext. intros p. apply ptok_text. }
  replace (concat (map says ps)) with (concat (map tval (map ptok ps))).
  2:{ rewrite map_map. f_equal. apply map_ext. intros p.
      destruct p; try reflexivity. cbn. now rewrite after_back_simple. }
  apply struni_toks.
  - apply Forall_map. eapply Forall_impl; [|exact Ho]. intros p Hp.
    destruct p as [c|c|h|h|h|h|]; cbn [plainly_written ptok tok_ok] in *.
    + exact Hp.
    + apply uUx_of, Hp.
    + apply (ptok_ok_gen (Hex2 h)). exact Hp.
    + apply (ptok_ok_gen (Hex4 h)). exact Hp.
    + apply (ptok_ok_gen (Hex8 h)). exact Hp.
    + apply (ptok_ok_gen (HexX h)). exact Hp.
    + lia.
  - apply Forall_map. eapply Forall_impl; [|exact Ho]. intros p Hp.
    destruct p as [c|c|h|h|h|h|]; cbn [plainly_written ptok undigit] in *; auto.
    destruct Hp as [_ Hd]. unfold is_digit. destruct (N.leb_spec 48 c), (N.leb_spec c 57); try reflexivity.
    exfalso. apply Hd. cbn. lia.
  - assert (G : forall ps prev, Forall plainly_written ps ->
      (prev = true -> match ps with q :: _ => says q <> lit "u" /\ says q <> lit "U" /\ says q <> lit "x" | [] => True end) ->
      (forall a p q b, ps = a ++ p :: q :: b -> says p = lit "\" ->
        says q <> lit "u" /\ says q <> lit "U" /\ says q <> lit "x") ->
      tsep prev (map ptok ps)).
    2:{ apply G; auto. discriminate. }
    clear. induction ps as [|p ps IH]; intros prev Ho Hp Hs; [exact I|].
    inversion Ho; subst. cbn [map tsep]. split.
    + intros Hpt Hu. destruct (Hp Hpt) as (A & B & C).
      destruct p as [c|c|h|h|h|h|]; cbn in Hu; try contradiction; [| | | | |unfold uUx in Hu; lia];
        destruct Hu as [F|[F|F]]; solve [apply A; cbn; now rewrite F|apply B; cbn; now rewrite F|apply C; cbn; now rewrite F].
    + apply IH; auto.
      * intros Hb. destruct ps as [|q ps]; [exact I|]. apply (Hs [] p q ps); [reflexivity|].
        destruct p; cbn in Hb; try discriminate; apply N.eqb_eq in Hb; cbn; now rewrite Hb.
      * intros a x q b E. apply (Hs (p :: a) x q b). now rewrite E.
Qed.
Print Assumptions C97_string.
Example C97_string_case : let l := [Lit 97; Gap; Back 116; Hex4 (lit "005d"); Lit 91; Hex8 (lit "0001F600"); Back 92; Lit 98] in
  Forall plainly_written l /\ concat (map written l) = lit "a \t\u005d[\U0001F600\\b" /\
  concat (map says l) = lit "a " ++ [9] ++ lit "][" ++ [128512] ++ lit "\b".
Proof.
  cbn zeta. split; [|split; reflexivity]. unfold hex_digits, code_point.
  repeat (constructor || (intros F; cbn in F; intuition discriminate) || reflexivity || (cbn; intuition discriminate) || lia).
Qed.

(** An escaped backslash before [u0041] is taken for the start of a hex escape. *)
Theorem C97_backslash_u_refuted : exists l, (forall ud, Forall (well_formed ud) l) /\
  map member l = [Some (lit "\"); Some (lit "u"); Some (lit "0"); Some (lit "0"); Some (lit "4"); Some (lit "1")] /\
  forall ud, us2list ud (lit "[" ++ concat (map iwritten l) ++ lit "]") = Ok [lit "A"].
Proof.
  exists (map One [Back 92; Lit 117; Lit 48; Lit 48; Lit 52; Lit 49]). split; [|split; [reflexivity|intros ud; vm_compute; reflexivity]].
  intros ud. repeat (constructor || (intros F; cbn in F; intuition discriminate) || reflexivity || (cbn; intuition discriminate) || lia).
Qed.
(** An escaped bracket after an escaped backslash ends the class. *)
Theorem C97_backslash_bracket_refuted : exists l, (forall ud, Forall (well_formed ud) l) /\
  map member l = [Some (lit "\"); Some (lit "]"); Some (lit "a")] /\
  forall ud, us2list ud (lit "[" ++ concat (map iwritten l) ++ lit "]") = Ok [lit "\"; lit "]"].
Proof.
  exists (map One [Back 92; Back 93; Lit 97]). split; [|split; [reflexivity|intros ud; vm_compute; reflexivity]].
  intros ud. repeat (constructor || (intros F; cbn in F; intuition discriminate) || reflexivity || (cbn; intuition discriminate) || lia).
Qed.
(** A space written as an escape is lost; after a backslash the next character is escaped. *)
Theorem C97_space_refuted : forall ud,
  us2list ud (lit "[\u0020]") = Ok [] /\ us2list ud (lit "[{a\x20b}]") = Ok [lit "ab"] /\
  us2list ud (lit "[\ n]") = Ok [[10]].
Proof. intros ud. repeat split; vm_compute; reflexivity. Qed.
(** The braced form of the backslash raises, though the other forms are read. *)
Theorem C97_braced_backslash_refuted : forall ud,
  us2list ud (lit "[\u{5c}]") = Raise ValueError /\ us2list ud (lit "[\u005c]") = Ok [lit "\"].
Proof. intros ud. split; vm_compute; reflexivity. Qed.
(** A number that is no code point raises, in a class and in a string. *)
Theorem C97_no_code_point : forall ud h, length h = 8%nat -> hex_digits h -> ~ code_point (hexnum h) ->
  us2list ud (lit "[\U" ++ h ++ lit "]") = Raise ValueError /\ struni (lit "\U" ++ h) = Raise ValueError.
Proof.
  intros ud h Hl [Hne Hh] Hc. unfold code_point in Hc.
  assert (E : forall r, hexat (92 :: 85 :: h ++ r) = Some (10%nat, Raise ValueError)).
  { intros r. unfold hexat. rewrite hexesc_at_U, take_hex_app by assumption. unfold pychr.
    destruct (N.ltb_spec (hexnum h) 1114112); [contradiction|]. reflexivity. }
  assert (E' : forall r, resub hexat 0 (92 :: 85 :: h ++ r) = Raise ValueError).
  { intros r. cbn [resub]. rewrite E. reflexivity. }
  split.
  - unfold us2list, us_parse. rewrite hexescre_sub_eq.
    change (lit "[\U" ++ h ++ lit "]") with (91 :: 92 :: 85 :: h ++ [93]).
    rewrite resub_none by (apply hexat_no92; lia). rewrite E'. reflexivity.
  - unfold struni. rewrite hexescre_sub_eq. change (lit "\U" ++ h) with (92 :: 85 :: h).
    rewrite <- (app_nil_r h), E'. reflexivity.
Qed.
Print Assumptions C97_no_code_point.
Example C97_no_code_point_case : length (lit "00110000") = 8%nat /\ hex_digits (lit "00110000") /\ ~ code_point (hexnum (lit "00110000")).
Proof. unfold hex_digits, code_point. repeat split; try discriminate; vm_compute; intuition discriminate. Qed.

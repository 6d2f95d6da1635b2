(** Proofs about writing a collation as ICU rules and reading it back. *)
From Verif Require Import Py PyFacts M_UnicodeSets P_UnicodeSets M_Collation P_CollEsc P_Collation P_Collation2 T_Collation
  T_Collation2 M_Tailor M_AsICU.
Open Scope N_scope.

(** * Escaped text *)
Inductive enc : pystr -> pystr -> Prop :=
| enc_nil : enc [] []
| enc_lit c t s : c <> 92 -> c <> 39 -> enc t s -> enc (c :: t) (c :: s)
| enc_esc c t s : inchars c escs = true -> c <> 92 -> enc t s -> enc (92 :: c :: t) (c :: s)
| enc_quote t s : enc t s -> enc (39 :: 39 :: t) (39 :: s).
Lemma enc_app a s b t : enc a s -> enc b t -> enc (a ++ b) (s ++ t).
Proof. induction 1; intros H2; cbn; [exact H2|apply enc_lit|apply enc_esc|apply enc_quote]; auto. Qed.
Lemma enc_E s : ~ In 92 s -> enc (E s) s.
Proof.
  induction s as [|c s IH]; intros H; [constructor|]. rewrite E_cons.
  assert (H' : ~ In 92 s) by (intros X; apply H; now right).
  assert (Hc : c <> 92) by (intros ->; apply H; now left).
  destruct (esc1_cases c) as [[Q ->]|[[-> ->]|(Q & N1 & N2 & ->)]]; cbn [app]; [apply enc_esc|apply enc_quote|apply enc_lit]; auto.
Qed.
Lemma enc_unescape t s : enc t s -> coll_unescape t = Ok s.
Proof.
  intros H. unfold coll_unescape.
  assert (A : forall k, uhexsub k 0 t = Ok t).
  { intros k. induction H as [|c t s N1 N2 H IH|c t s Q N H IH|t s H IH]; [reflexivity| | |].
    - rewrite uhexsub_none by (now apply uat_no92). now rewrite IH.
    - pose proof (escs_cases c Q) as Hr. rewrite uhexsub_none by (apply uat_92; lia).
      rewrite uhexsub_none by (now apply uat_no92). now rewrite IH.
    - rewrite uhexsub_none by (now apply uat_no92). rewrite uhexsub_none by (now apply uat_no92). now rewrite IH. }
  rewrite A. cbn [bind]. f_equal. clear A.
  induction H as [|c t s N1 N2 H IH|c t s Q N H IH|t s H IH]; [reflexivity| | |].
  - rewrite unbs_lit by exact N1. rewrite unq_lit by exact N2. now rewrite IH.
  - pose proof (escs_cases c Q) as Hr. rewrite unbs_esc by lia.
    assert (c <> 39) by (intros ->; discriminate Q). rewrite unq_lit by assumption. now rewrite IH.
  - rewrite (unbs_lit 39 (39 :: t)) by discriminate. rewrite unbs_lit by discriminate. rewrite unq_q. now rewrite IH.
Qed.
Lemma E_in c s : In c (E s) -> In c s \/ c = 92.
Proof.
  unfold E. intros H. apply in_flat_map in H as (x & Hx & H).
  destruct (esc1_cases x) as [[_ R]|[[-> R]|(_ & _ & _ & R)]]; rewrite R in H; cbn in H; intuition (subst; auto).
Qed.
Lemma E_app a b : E (a ++ b) = E a ++ E b.
Proof. unfold E. apply flat_map_app. Qed.
(** a hash is never at the start or after anything but a backslash *)
Fixpoint guarded (prev : bool) (s : pystr) : Prop :=
  match s with
  | [] => True
  | c :: s' => (c = 35 -> prev = true) /\ guarded (N.eqb c 92) s'
  end.
Lemma guarded_weaken s : forall p, guarded false s -> guarded p s.
Proof. destruct s as [|c s]; intros p H; [exact I|]. destruct H as [A B]. split; [|exact B]. intros X. specialize (A X). discriminate. Qed.
Lemma guarded_app a b : forall p, guarded p a -> guarded false b -> guarded p (a ++ b).
Proof.
  induction a as [|c a IH]; intros p Ha Hb; cbn.
  - now apply guarded_weaken.
  - destruct Ha as [A B]. split; [exact A|]. now apply IH.
Qed.
Lemma guarded_nohash s : ~ In 35 s -> forall p, guarded p s.
Proof.
  induction s as [|c s IH]; intros H p; [exact I|]. cbn. split; [intros ->; exfalso; apply H; now left|].
  apply IH. intros X. apply H. now right.
Qed.
Lemma guarded_E s : guarded false (E s).
Proof.
  induction s as [|c s IH]; [exact I|]. rewrite E_cons.
  destruct (esc1_cases c) as [[Q ->]|[[-> ->]|(Q & N1 & N2 & ->)]]; cbn [app guarded].
  - split; [discriminate|]. split; [reflexivity|]. now apply guarded_weaken.
  - split; [discriminate|]. split; [discriminate|]. now apply guarded_weaken.
  - split; [intros ->; discriminate Q|]. now apply guarded_weaken.
Qed.
Lemma guarded_drop ws s : ws 92 = false -> forall p, guarded p s -> drop_comments ws false s = s.
Proof.
  intros H92. induction s as [|c s IH]; intros p H; [reflexivity|]. destruct H as [A B]. cbn [drop_comments].
  rewrite (IH _ B). destruct s as [|d s]; [reflexivity|]. destruct B as [B _].
  destruct (N.eq_dec d 35) as [->|Nd].
  - specialize (B eq_refl). apply N.eqb_eq in B as ->. now rewrite H92.
  - clear - Nd. nodigit d.
Qed.
Lemma guarded_lines s : guarded false s -> drop_comment_lines s = s.
Proof.
  intros H. unfold drop_comment_lines.
  assert (X : forall p s, guarded p s -> p = false -> map (fun l => match l with 35 :: _ => [] | _ => l end) (split_on 10 s) = split_on 10 s).
  { clear. intros p s. revert p. induction s as [|c s IH]; intros p H Hp; [reflexivity|]. destruct H as [A B]. cbn [split_on].
    destruct (N.eqb_spec c 10) as [->|N].
    - cbn [map]. f_equal. eapply IH; [exact B|reflexivity].
    - assert (Nc : c <> 35) by (intros ->; specialize (A eq_refl); congruence).
      assert (Y : map (fun l => match l with 35 :: _ => [] | _ => l end) (tl (split_on 10 s)) = tl (split_on 10 s)).
      { clear - B. revert B. generalize (N.eqb c 92). clear c. induction s as [|c s IH]; intros q B; [reflexivity|]. destruct B as [A B]. cbn [split_on].
        destruct (N.eqb_spec c 10) as [->|N].
        - cbn [tl]. specialize (IH _ B). destruct s as [|d s]; [reflexivity|]. cbn [split_on] in *.
          destruct B as [B _].
          destruct (N.eqb_spec d 10) as [->|Nd].
          + cbn [map tl] in *. f_equal. exact IH.
          + assert (Nd' : d <> 35) by (intros ->; specialize (B eq_refl); discriminate B).
            destruct (split_on 10 s) as [|h r]; cbn [map tl] in *; f_equal; try exact IH; clear - Nd'; nodigit d.
        - specialize (IH _ B). destruct (split_on 10 s) as [|h r]; cbn [tl map] in *; [reflexivity|exact IH]. }
      destruct (split_on 10 s) as [|h r]; cbn [map tl] in *; f_equal; try exact Y; clear - Nc; nodigit c. }
  rewrite (X false s H eq_refl). apply join_split.
Qed.

(** * Strings that can be written and read back *)
Definition trimmed_text (ws : N -> bool) (s : pystr) : Prop :=
  (exists x m, s = x :: m /\ ws x = false) /\ (exists y m, s = m ++ [y] /\ ws y = false).
Definition writable (ws : N -> bool) (s : pystr) : Prop :=
  trimmed_text ws s /\ forall c, In c s -> ~ In c [10; 38; 47; 60; 61; 92].
(** what the code's notions of white space and digits have to satisfy *)
Definition sane (ws isd : N -> bool) (dval : N -> N) : Prop :=
  ws 10 = true /\ ws 32 = true /\ (forall c, In c [91; 92; 93; 60; 61] -> ws c = false) /\
  forall b, 1 <= b <= 9 -> ws (48 + b) = false /\ isd (48 + b) = true /\ dval (48 + b) = b.

Lemma E_trim ws s : ws 92 = false -> trimmed_text ws s -> trimmed_text ws (E s).
Proof.
  intros H92 [(x & m & -> & Hx) (y & m' & Ey & Hy)]. split.
  - rewrite E_cons. destruct (esc1_cases x) as [[Q ->]|[[-> ->]|(Q & N1 & N2 & ->)]]; cbn [app]; eauto.
  - rewrite Ey, E_app. destruct (esc1_cases y) as [[Q R]|[[-> R]|(Q & N1 & N2 & R)]]; unfold E at 2; cbn [flat_map]; rewrite R; cbn [app].
    + exists y, (E m' ++ [92]). split; [now rewrite <- app_assoc|exact Hy].
    + exists 39, (E m' ++ [39]). split; [now rewrite <- app_assoc|exact Hy].
    + exists y, (E m'). split; [reflexivity|exact Hy].
Qed.
Lemma trim_app ws a b : trimmed_text ws a -> trimmed_text ws b -> forall m, trimmed_text ws (a ++ m ++ b).
Proof.
  intros [(x & m1 & -> & Hx) _] [_ (y & m2 & -> & Hy)] m. split.
  - exists x, (m1 ++ m ++ m2 ++ [y]). auto.
  - exists y, ((x :: m1) ++ m ++ m2). split; [|exact Hy]. now rewrite !app_assoc.
Qed.
Lemma strip_text ws p s q : forallb ws p = true -> forallb ws q = true -> trimmed_text ws s -> strip ws (p ++ s ++ q) = s.
Proof. intros Hp Hq [A B]. now apply strip_trim. Qed.
Lemma strip_id ws s : trimmed_text ws s -> strip ws s = s.
Proof. intros H. pose proof (strip_text ws [] s [] eq_refl eq_refl H) as X. now rewrite app_nil_r in X. Qed.

Lemma strip_prefix_Some p : forall s r, strip_prefix p s = Some r -> s = p ++ r.
Proof.
  induction p as [|c p IH]; intros s r H; [now injection H|]. destruct s as [|x s]; [discriminate|]. cbn [strip_prefix] in H.
  destruct (N.eqb_spec c x) as [->|]; [|discriminate]. cbn. f_equal. now apply IH.
Qed.

(** * Pieces: one per element: does it begin a new chain, the blank before the operator, the element *)
Definition piece := (bool * N * pystr * tel)%type.
Definition op_of (l : nat) : pystr := if Nat.eqb l 4 then [61] else firstn l [60; 60; 60].
Definition key_text (k : pystr) (e : tel) : pystr := E k ++ match t_exp e with [] => [] | x => 47 :: E x end.
Definition base_txt (e : tel) : pystr :=
  (if N.eqb (t_before e) 0 then [] else lit "[before " ++ dec (t_before e) ++ [93]) ++ E (t_base e).
Definition body (p : piece) : pystr := let '(_, sep, k, e) := p in sep :: op_of (t_level e) ++ 32 :: key_text k e.
Definition ptext (p : piece) : pystr :=
  (if fst (fst (fst p)) then [10; 38] ++ base_txt (snd p) else []) ++ body p.

(** an element that can be written and read back *)
Definition good_item (ws : N -> bool) (k : pystr) (e : tel) : Prop :=
  writable ws k /\ writable ws (t_base e) /\ (t_exp e = [] \/ writable ws (t_exp e)) /\
  (1 <= t_level e <= 4)%nat /\ t_before e <= 9 /\ ~ exists r, t_base e = lit "[before" ++ r.
Definition good_piece (ws : N -> bool) (p : piece) : Prop :=
  let '(_, sep, k, e) := p in good_item ws k e /\ (sep = 10 \/ sep = 32).

Lemma op_cases l : (1 <= l <= 4)%nat ->
  op_of l = [60] /\ l = 1%nat \/ op_of l = [60; 60] /\ l = 2%nat \/ op_of l = [60; 60; 60] /\ l = 3%nat \/ op_of l = [61] /\ l = 4%nat.
Proof. intros H. destruct l as [|[|[|[|[|l]]]]]; try lia; cbn; auto 6. Qed.

Section Read.
  Variables (ws isd : N -> bool) (dval : N -> N).
  Hypothesis SANE : sane ws isd dval.
  Lemma ws92 : ws 92 = false. Proof. apply SANE. cbn; auto. Qed.

  Lemma key_trim k e : good_item ws k e -> trimmed_text ws (key_text k e).
  Proof.
    intros ((T & _) & _ & HX & _). unfold key_text. pose proof (E_trim ws k ws92 T) as TE.
    destruct HX as [X|[TX _]]; [rewrite X, app_nil_r; exact TE|].
    pose proof (E_trim ws _ ws92 TX) as TEX. destruct (t_exp e) as [|x0 x]; [rewrite app_nil_r; exact TE|].
    apply (trim_app ws _ _ TE TEX [47]).
  Qed.
  Lemma base_trim k e : good_item ws k e -> trimmed_text ws (base_txt e).
  Proof.
    intros (_ & (T & _) & _). unfold base_txt. pose proof (E_trim ws _ ws92 T) as TE.
    destruct (N.eqb (t_before e) 0); [exact TE|].
    destruct TE as [_ (y & m & -> & Hy)]. split.
    - exists 91, ((lit "before " ++ dec (t_before e) ++ [93]) ++ m ++ [y]). split; [reflexivity|]. apply SANE. cbn; auto.
    - exists y, ((lit "[before " ++ dec (t_before e) ++ [93]) ++ m). split; [apply app_assoc|exact Hy].
  Qed.
  Lemma writable_not s c : writable ws s -> In c (E s) -> c <> 10 /\ c <> 38 /\ c <> 47 /\ c <> 60 /\ c <> 61.
  Proof.
    intros [_ H] Hc. apply E_in in Hc as [Hc| ->]; [|repeat split; discriminate]. specialize (H c Hc). cbn in H.
    repeat split; intros ->; apply H; tauto.
  Qed.
  Lemma dec_digit b : b <= 9 -> dec b = [48 + b].
  Proof. intros H. unfold dec. cbn [dec_fuel]. destruct (N.ltb_spec b 10); [reflexivity|lia]. Qed.
  Lemma base_chars k e c : good_item ws k e -> In c (base_txt e) -> c <> 10 /\ c <> 38 /\ c <> 60 /\ c <> 61.
  Proof.
    intros (_ & WB & _ & _ & HB & _) Hc. unfold base_txt in Hc. apply in_app_or in Hc as [Hc|Hc].
    - destruct (N.eqb (t_before e) 0); [destruct Hc|]. rewrite (dec_digit _ HB) in Hc.
      apply in_app_or in Hc as [Hc|Hc]; [cbn in Hc; intuition (subst; discriminate)|].
      apply in_app_or in Hc as [[<-|[]]|[<-|[]]]; repeat split; lia.
    - pose proof (writable_not _ c WB Hc). tauto.
  Qed.
  Lemma key_chars k e c : good_item ws k e -> In c (key_text k e) -> c <> 10 /\ c <> 38 /\ c <> 60 /\ c <> 61.
  Proof.
    intros (WK & _ & WX & _) Hc. unfold key_text in Hc. apply in_app_or in Hc as [Hc|Hc].
    - pose proof (writable_not _ c WK Hc). tauto.
    - destruct WX as [X|WX]; [rewrite X in Hc; destruct Hc|]. destruct (t_exp e) as [|x0 x]; [destruct Hc|].
      destruct Hc as [<-|Hc]; [repeat split; discriminate|]. pose proof (writable_not _ c WX Hc). tauto.
  Qed.
  Lemma guarded_key k e : guarded false (key_text k e).
  Proof.
    unfold key_text. apply guarded_app; [apply guarded_E|]. destruct (t_exp e) as [|x0 x]; [exact I|].
    cbn [guarded]. split; [discriminate|]. apply guarded_E.
  Qed.

  (** reading an element *)
  Lemma read_key k e : good_item ws k e -> rel_key ws (key_text k e) = Ok (k, t_exp e).
  Proof.
    intros G. pose proof G as (WK & WB & WX & _). unfold rel_key. rewrite (guarded_drop ws _ ws92 false) by apply guarded_key.
    assert (N92 : forall s, writable ws s -> ~ In 92 s) by (intros s [_ H] X; apply (H 92 X); cbn; tauto).
    assert (N47 : forall s, writable ws s -> ~ In 47 s) by (intros s [_ H] X; apply (H 47 X); cbn; tauto).
    destruct (t_exp e) as [|x0 x] eqn:EX.
    - unfold key_text. rewrite EX, app_nil_r. rewrite (enc_unescape _ k) by (apply enc_E; auto). cbn [bind].
      now rewrite find_char_none by auto.
    - destruct WX as [X|WX]; [discriminate|].
      assert (EN : enc (key_text k e) (k ++ 47 :: x0 :: x)).
      { unfold key_text. rewrite EX. apply enc_app; [apply enc_E; auto|]. apply enc_lit; try discriminate. apply enc_E; auto. }
      rewrite (enc_unescape _ _ EN). cbn [bind]. rewrite find_char_at by auto.
      destruct WK as [TK _]. destruct k as [|k0 k]; [destruct TK as [(? & ? & X & _) _]; discriminate|]. cbn [length].
      replace (firstn (S (length k)) ((k0 :: k) ++ 47 :: x0 :: x)) with (k0 :: k) by (apply (prefix_firstn (k0 :: k))).
      replace (skipn (S (S (length k))) ((k0 :: k) ++ 47 :: x0 :: x)) with (x0 :: x).
      + rewrite (strip_id ws _ TK). destruct WX as [TX _]. now rewrite (strip_id ws _ TX).
      + cbn [app skipn]. clear. induction k as [|y k IH]; [reflexivity|exact IH].
  Qed.
  (** reading a reset *)
  Lemma read_base k e : good_item ws k e -> 
    (do u <- coll_unescape (base_txt e); Ok (base_match ws isd dval u)) = Ok (Some (t_base e, t_before e)).
  Proof.
    intros (_ & WB & _ & _ & HB & NB). pose proof WB as [TB CB].
    assert (N92 : ~ In 92 (t_base e)) by (intros X; apply (CB 92 X); cbn; tauto).
    assert (N10 : inchars 10 (t_base e) = false) by (apply inchars_false; intros X; apply (CB 10 X); cbn; tauto).
    pose proof TB as [(x & m & Es & Hx) TB2].
    assert (Hx38 : x <> 38) by (intros ->; apply (CB 38); [rewrite Es; now left|cbn; tauto]).
    unfold base_txt. destruct (N.eqb_spec (t_before e) 0) as [E0|N0].
    - cbn [app]. rewrite (enc_unescape _ _ (enc_E _ N92)). cbn [bind]. f_equal.
      unfold base_match. cbv zeta. rewrite Es. rewrite lstrip_head by exact Hx.
      assert (E1 : (match x :: m with 38 :: r => lstrip ws r | _ => x :: m end) = x :: m) by (clear - Hx38; nodigit x).
      rewrite E1. rewrite <- Es.
      assert (E2 : before_mark ws isd dval (t_base e) = None).
      { unfold before_mark. destruct (strip_prefix (lit "[before") (t_base e)) as [r|] eqn:SP; [|reflexivity].
        apply strip_prefix_Some in SP. exfalso. apply NB. exists r. exact SP. }
      rewrite E2, rstrip_trim by exact TB2. rewrite N10, E0. reflexivity.
    - rewrite (dec_digit _ HB). destruct SANE as (W10 & W32 & WF & DG).
      destruct (DG (t_before e)) as (D1 & D2 & D3); [lia|].
      assert (EN : enc ((lit "[before " ++ [48 + t_before e] ++ [93]) ++ E (t_base e)) ((lit "[before " ++ [48 + t_before e] ++ [93]) ++ t_base e)).
      { apply enc_app; [|now apply enc_E]. cbn [lit app]. repeat (apply enc_lit; [discriminate|discriminate|]).
        apply enc_lit; [lia|lia|]. apply enc_lit; [discriminate|discriminate|]. constructor. }
      rewrite (enc_unescape _ _ EN). cbn [bind]. f_equal. unfold base_match. cbv zeta.
      set (S := (lit "[before " ++ [48 + t_before e] ++ [93]) ++ t_base e).
      assert (E1 : lstrip ws S = S).
      { unfold S. change (lit "[before ") with (91 :: lit "before "). cbn [app]. apply lstrip_head. apply WF. cbn; auto. }
      rewrite E1. assert (E2 : (match S with 38 :: r => lstrip ws r | _ => S end) = S) by reflexivity. rewrite E2.
      assert (E3 : before_mark ws isd dval S = Some (t_before e, t_base e)).
      { unfold before_mark, S.
        assert (P : forall r, strip_prefix (lit "[before") (lit "[before " ++ r) = Some (32 :: r)) by reflexivity.
        rewrite <- !app_assoc, P, W32. cbn [app]. rewrite lstrip_head by exact D1. rewrite D2.
        rewrite lstrip_head by (apply WF; cbn; auto). rewrite D3, Es. now rewrite lstrip_head by exact Hx. }
      rewrite E3, rstrip_trim by exact TB2. now rewrite N10.
  Qed.
End Read.

(** * Reading the pieces *)
Lemma op_split_app t o r t2 r2 : (forall c, In c t -> c <> 60 /\ c <> 61) -> o <> [] -> (forall c, In c o -> c = 60 \/ c = 61) ->
  op_split r = (t2, r2) -> t2 <> [] -> op_split (t ++ o ++ r) = (t, (o, t2) :: r2).
Proof.
  intros Ht No Ho Hr Nt. assert (A : op_split (o ++ r) = ([], (o, t2) :: r2)).
  { induction o as [|c o IH]; [congruence|]. cbn [app op_split].
    assert (Hc : isop c = true) by (unfold isop; destruct (Ho c (or_introl eq_refl)) as [-> | ->]; reflexivity).
    destruct o as [|c' o].
    - cbn [app]. rewrite Hr, Hc. destruct t2; [congruence|reflexivity].
    - rewrite IH; [now rewrite Hc|discriminate|]. intros x Hx. apply Ho. now right. }
  induction t as [|c t IH]; [exact A|]. cbn [app op_split]. rewrite IH by (intros x Hx; apply Ht; now right).
  destruct (Ht c (or_introl eq_refl)) as [X Y]. unfold isop. apply N.eqb_neq in X, Y. now rewrite X, Y.
Qed.

Lemma NoDup_app_l {A} (a b : list A) : NoDup (a ++ b) -> NoDup a.
Proof. induction a as [|x a IH]; cbn; intros H; [constructor|]. inversion H as [|? ? H1 H2]; subst. constructor; [|auto]. intros X. apply H1. apply in_or_app. now left. Qed.

Section Runs.
  Variables (ws isd : N -> bool) (dval : N -> N).
  Hypothesis SANE : sane ws isd dval.
  Notation gp := (good_piece ws).

  Definition bits (p : piece) : pystr * pystr := let '(_, _, k, e) := p in (op_of (t_level e), key_text k e).
  Lemma op_ok l : (1 <= l <= 4)%nat -> op_of l <> [] /\ (forall c, In c (op_of l) -> c = 60 \/ c = 61) /\
    strip ws (op_of l) = op_of l /\ op_level ws (op_of l) = l.
  Proof.
    intros H. assert (T : trimmed_text ws (op_of l)).
    { assert (W1 : ws 60 = false) by (apply SANE; cbn; auto). assert (W2 : ws 61 = false) by (apply SANE; cbn; auto 6).
      destruct (op_cases l H) as [[-> _]|[[-> _]|[[-> _]|[-> _]]]]; split.
      - now exists 60, []. - now exists 60, []. - now exists 60, [60]. - now exists 60, [60].
      - now exists 60, [60; 60]. - now exists 60, [60; 60]. - now exists 61, []. - now exists 61, []. }
    assert (C : forall c, In c (op_of l) -> c = 60 \/ c = 61).
    { destruct (op_cases l H) as [[-> _]|[[-> _]|[[-> _]|[-> _]]]]; cbn; intuition. }
    split; [destruct (op_cases l H) as [[-> _]|[[-> _]|[[-> _]|[-> _]]]]; discriminate|]. split; [exact C|].
    split; [now apply strip_id|].
    destruct (op_cases l H) as [[-> ->]|[[-> ->]|[[-> ->]|[-> ->]]]]; apply C10_operator_levels.
  Qed.

  Definition blank (s : pystr) : Prop := forallb ws s = true /\ forall c, In c s -> c <> 60 /\ c <> 61.
  Lemma sep_blank s : s = 10 \/ s = 32 -> blank [s].
  Proof.
    destruct SANE as (A & B & _). intros [->| ->]; split; cbn; rewrite ?A, ?B; try reflexivity; intuition (subst; discriminate).
  Qed.
  Lemma split_bodies : forall ps x tail, Forall gp ps -> (forall c, In c x -> c <> 60 /\ c <> 61) -> blank tail ->
    exists q r, op_split (x ++ flat_map body ps ++ tail) = (x ++ q, r) /\ blank q /\
      map (fun p => (strip ws (fst p), strip ws (snd p))) r = map bits ps.
  Proof.
    induction ps as [|[[[rs sep] k] e] ps IH]; intros x tail HF Hx HT.
    - cbn [flat_map app]. exists tail, []. rewrite op_split_plain; [auto|].
      intros c Hc. apply in_app_or in Hc as [Hc|Hc]; [now apply Hx|]. now apply HT.
    - inversion HF as [|? ? GP HF']; subst. destruct GP as [G HS]. cbn [flat_map body].
      pose proof G as (_ & _ & _ & L & _).
      destruct (op_ok _ L) as (O1 & O2 & O3 & O4).
      destruct (IH (32 :: key_text k e) tail HF') as (q & r & E & Q & R); [|exact HT|].
      { intros c [<-|Hc]; [split; discriminate|]. pose proof (key_chars ws k e c G Hc). tauto. }
      destruct (sep_blank sep HS) as [B1 B2].
      exists [sep], ((op_of (t_level e), 32 :: key_text k e ++ q) :: r). split; [|split].
      + rewrite <- !app_assoc. cbn [app].
        replace (x ++ sep :: (op_of (t_level e) ++ 32 :: key_text k e) ++ flat_map body ps ++ tail)
          with ((x ++ [sep]) ++ op_of (t_level e) ++ (32 :: key_text k e) ++ flat_map body ps ++ tail).
        * apply op_split_app; [|exact O1|exact O2|exact E|discriminate].
          intros c Hc. apply in_app_or in Hc as [Hc|Hc]; [now apply Hx|now apply B2].
        * rewrite <- !app_assoc. reflexivity.
      + now split.
      + cbn [map fst snd bits]. rewrite R, O3. f_equal. f_equal.
        apply (strip_text ws [32] (key_text k e) q); [|apply Q|now apply key_trim with (isd := isd) (dval := dval)].
        cbn. destruct SANE as (_ & W32 & _). now rewrite W32.
  Qed.

  (** one run: a reset and the elements after it *)
  Lemma read_run p ps tail : gp p -> Forall gp ps -> blank tail ->
    run_bits ws isd dval (base_txt (snd p) ++ flat_map body (p :: ps) ++ tail) =
    Ok (Some (t_base (snd p), t_before (snd p), map bits (p :: ps))).
  Proof.
    intros G HF HT. destruct p as [[[rs sep] k] e]. cbn [snd]. pose proof G as [GI _].
    destruct (split_bodies ((rs, sep, k, e) :: ps) (base_txt e) tail) as (q & r & E & Q & R); [now constructor| |exact HT|].
    { intros c Hc. pose proof (base_chars ws k e c GI Hc). tauto. }
    unfold run_bits.
    match goal with |- context [op_split ?x] => replace (op_split x) with (base_txt e ++ q, r) by (symmetry; exact E) end.
    pose proof (strip_text ws [] (base_txt e) q eq_refl (proj1 Q) (base_trim ws isd dval SANE k e GI)) as ST.
    cbn [app] in ST. cbn [fst snd]. rewrite ST.
    pose proof (read_base ws isd dval SANE k e GI) as RB.
    destruct (coll_unescape (base_txt e)) as [u|]; [|discriminate]. cbn [bind] in *. injection RB as ->. now rewrite R.
  Qed.

  (** the entries made of pieces that follow each other in one run, and of several runs *)
  Fixpoint run_ents (n i : nat) (base : pystr) (before : N) (ps : list piece) : coll :=
    match ps with
    | [] => []
    | (_, _, k, e) :: ps' => (k, CElt base (t_level e) before (n, i) (t_exp e)) :: run_ents n (S (S i)) k 0 ps'
    end.
  Definition pkey (p : piece) : pystr := snd (fst p).
  Lemma run_ents_keys n i b bf ps : map fst (run_ents n i b bf ps) = map pkey ps.
  Proof. revert i b bf. induction ps as [|[[[rs sep] k] e] ps IH]; intros; cbn; [reflexivity|]. now rewrite IH. Qed.

  Lemma read_rels n : forall ps i c base before, Forall gp ps -> NoDup (dkeys c ++ map pkey ps) ->
    parse_rels ws n i (c, base, before) (map bits ps) = (c ++ run_ents n i base before ps, None).
  Proof.
    induction ps as [|[[[rs sep] k] e] ps IH]; intros i c base before HF ND.
    - cbn. now rewrite app_nil_r.
    - inversion HF as [|? ? GP HF']; subst. destruct GP as [G HS]. cbn [map bits parse_rels].
      assert (NI : ~ In k (dkeys c)).
      { cbn [map pkey fst snd] in ND. apply NoDup_remove_2 in ND. intros X. apply ND. apply in_or_app. now left. }
      unfold parse_rel. cbn [fst snd].
      rewrite (read_key ws isd dval SANE k e G). cbn [bind].
      assert (DM : dmem streq c k = false).
      { destruct (dmem streq c k) eqn:D; [|reflexivity]. apply (dmem_spec _ streq_spec) in D. contradiction. }
      assert (FK : fresh_key (length c) c k = Ok k) by (destruct (length c); cbn [fresh_key]; now rewrite DM).
      rewrite FK. cbn [bind]. unfold coll_set. rewrite DM. cbn [bind]. rewrite dset_fresh by exact NI.
      pose proof G as (_ & _ & _ & L & _). destruct (op_ok _ L) as (_ & _ & _ & ->).
      rewrite IH.
      + cbn [run_ents]. now rewrite <- app_assoc.
      + exact HF'.
      + unfold dkeys. rewrite map_app. cbn [map fst]. rewrite <- app_assoc. exact ND.
  Qed.

  (** groups: a first piece with a reset, and the pieces after it *)
  Definition group := (piece * list piece)%type.
  Definition gpieces (g : group) : list piece := fst g :: snd g.
  Definition gtext (g : group) : pystr := base_txt (snd (fst g)) ++ flat_map body (gpieces g).
  Fixpoint group_ents (n : nat) (gs : list group) : coll :=
    match gs with
    | [] => []
    | g :: gs' => run_ents n 1 (t_base (snd (fst g))) (t_before (snd (fst g))) (gpieces g) ++ group_ents (S n) gs'
    end.
  Definition good_group (g : group) : Prop := gp (fst g) /\ Forall gp (snd g).
  Lemma body_no38 p : gp p -> ~ In 38 (body p).
  Proof.
    destruct p as [[[rs sep] k] e]. intros [G HS] [X|X]; [destruct HS; subst; discriminate|].
    apply in_app_or in X as [X|X].
    - pose proof G as (_ & _ & _ & L & _). apply (op_ok _ L) in X as [X|X]; discriminate.
    - destruct X as [X|X]; [discriminate|]. pose proof (key_chars ws k e _ G X). tauto.
  Qed.
  Lemma gtext_no38 g : good_group g -> ~ In 38 (gtext g).
  Proof.
    intros [A B] X. unfold gtext in X. apply in_app_or in X as [X|X].
    - destruct g as [[[[rs sep] k] e] ps]. cbn [fst snd] in *. pose proof (base_chars ws k e _ (proj1 A) X). tauto.
    - apply in_flat_map in X as (p & Hp & X). revert X. apply body_no38. destruct Hp as [<-|Hp]; [exact A|].
      rewrite Forall_forall in B. now apply B.
  Qed.
  Fixpoint grp_runs (gs : list group) : list pystr :=
    match gs with
    | [] => []
    | [g] => [gtext g]
    | g :: gs' => (gtext g ++ [10]) :: grp_runs gs'
    end.
  Lemma split_groups g gs : Forall good_group (g :: gs) ->
    split_on 38 (gtext g ++ flat_map (fun g => [10; 38] ++ gtext g) gs) = grp_runs (g :: gs).
  Proof.
    revert g. induction gs as [|g2 gs IH]; intros g H; inversion H as [|? ? H1 H2]; subst.
    - cbn [flat_map]. rewrite app_nil_r. apply split_on_nosep. now apply gtext_no38.
    - cbn [flat_map]. change (grp_runs (g :: g2 :: gs)) with ((gtext g ++ [10]) :: grp_runs (g2 :: gs)).
      rewrite <- IH by exact H2. 
      replace (gtext g ++ ([10; 38] ++ gtext g2) ++ flat_map (fun g0 => [10; 38] ++ gtext g0) gs)
        with ((gtext g ++ [10]) ++ 38 :: (gtext g2 ++ flat_map (fun g0 => [10; 38] ++ gtext g0) gs)) by (now rewrite <- !app_assoc).
      apply split_on_app. intros X. apply in_app_or in X as [X|[X|[]]]; [|discriminate]. revert X. now apply gtext_no38.
  Qed.
  Lemma read_group n c g tail : good_group g -> blank tail -> NoDup (dkeys c ++ map pkey (gpieces g)) ->
    parse_run ws isd dval n c (gtext g ++ tail) =
    (c ++ run_ents n 1 (t_base (snd (fst g))) (t_before (snd (fst g))) (gpieces g), None).
  Proof.
    intros [A B] HT ND. unfold parse_run, gtext, gpieces. rewrite <- app_assoc.
    rewrite (read_run (fst g) (snd g) tail A B HT). apply read_rels; [|exact ND]. constructor; assumption.
  Qed.
  Lemma read_groups : forall gs n c, Forall good_group gs -> NoDup (dkeys c ++ map pkey (flat_map gpieces gs)) ->
    parse_runs ws isd dval n c (grp_runs gs) = (c ++ group_ents n gs, None).
  Proof.
    induction gs as [|g gs IH]; intros n c H ND.
    - cbn. now rewrite app_nil_r.
    - inversion H as [|? ? H1 H2]; subst. cbn [flat_map] in ND. rewrite map_app, app_assoc in ND.
      assert (ND1 : NoDup (dkeys c ++ map pkey (gpieces g))) by (eapply NoDup_app_l; exact ND).
      assert (X : forall tail rest, blank tail -> parse_runs ws isd dval n c ((gtext g ++ tail) :: rest) =
         parse_runs ws isd dval (S n) (c ++ run_ents n 1 (t_base (snd (fst g))) (t_before (snd (fst g))) (gpieces g)) rest).
      { intros tail rest HT. cbn [parse_runs]. now rewrite (read_group n c g tail H1 HT ND1). }
      assert (B10 : blank [10]) by (apply sep_blank; auto).
      assert (B0 : blank []) by (split; [reflexivity|intros ? []]).
      assert (Y : parse_runs ws isd dval n c (grp_runs (g :: gs)) =
         parse_runs ws isd dval (S n) (c ++ run_ents n 1 (t_base (snd (fst g))) (t_before (snd (fst g))) (gpieces g)) (grp_runs gs)).
      { destruct gs as [|g2 gs]; [cbn [grp_runs]; rewrite <- (X [] [] B0); now rewrite app_nil_r|].
        change (grp_runs (g :: g2 :: gs)) with ((gtext g ++ [10]) :: grp_runs (g2 :: gs)). now apply X. }
      rewrite Y, IH.
      + cbn [group_ents]. now rewrite <- app_assoc.
      + exact H2.
      + unfold dkeys. rewrite map_app, run_ents_keys. exact ND.
  Qed.

  (** flat pieces, cut at the resets *)
  Fixpoint group_up (ps : list piece) : list piece * list group :=
    match ps with
    | [] => ([], [])
    | p :: ps' => let (l, gs) := group_up ps' in if fst (fst (fst p)) then ([], (p, l) :: gs) else (p :: l, gs)
    end.
  Fixpoint flat_ents (n i : nat) (prev : pystr) (ps : list piece) : coll :=
    match ps with
    | [] => []
    | (rs, _, k, e) :: ps' =>
        if (rs : bool) then (k, CElt (t_base e) (t_level e) (t_before e) (S n, 1%nat) (t_exp e)) :: flat_ents (S n) 3 k ps'
        else (k, CElt prev (t_level e) 0 (n, i) (t_exp e)) :: flat_ents n (S (S i)) k ps'
    end.
  Lemma group_up_ents : forall ps n i prev,
    flat_ents n i prev ps = run_ents n i prev 0 (fst (group_up ps)) ++ group_ents (S n) (snd (group_up ps)).
  Proof.
    induction ps as [|[[[rs sep] k] e] ps IH]; intros n i prev; [reflexivity|]. cbn [flat_ents group_up fst].
    destruct (group_up ps) as [l gs] eqn:G. cbn [fst snd] in IH. destruct rs; cbn [fst snd].
    - cbn [run_ents app group_ents gpieces fst snd]. rewrite IH. reflexivity.
    - cbn [run_ents app]. now rewrite IH.
  Qed.
  Lemma group_up_text ps : flat_map ptext ps =
    flat_map body (fst (group_up ps)) ++ flat_map (fun g => [10; 38] ++ gtext g) (snd (group_up ps)).
  Proof.
    induction ps as [|[[[rs sep] k] e] ps IH]; [reflexivity|]. cbn [flat_map group_up fst]. rewrite IH.
    destruct (group_up ps) as [l gs]. cbn [fst snd]. unfold ptext at 1. cbn [fst snd]. destruct rs; cbn [fst snd].
    - cbn [flat_map app]. unfold gtext at 2. cbn [fst snd gpieces flat_map]. rewrite <- !app_assoc. reflexivity.
    - cbn [flat_map app]. now rewrite <- app_assoc.
  Qed.
  Lemma group_up_pieces ps : ps = fst (group_up ps) ++ flat_map gpieces (snd (group_up ps)).
  Proof.
    induction ps as [|[[[rs sep] k] e] ps IH]; [reflexivity|]. cbn [group_up fst]. destruct (group_up ps) as [l gs]. cbn [fst snd] in IH.
    destruct rs; cbn [fst snd flat_map gpieces app]; now rewrite IH at 1.
  Qed.
  Lemma group_up_good ps : Forall gp ps -> Forall gp (fst (group_up ps)) /\ Forall good_group (snd (group_up ps)).
  Proof.
    induction 1 as [|p ps H HF [IH1 IH2]]; [split; constructor|]. cbn [group_up]. destruct (group_up ps) as [l gs]. cbn [fst snd] in *.
    destruct (fst (fst (fst p))); cbn [fst snd]; split; auto. constructor; [|exact IH2]. now split.
  Qed.
  Lemma guarded_ptext p : gp p -> guarded false (ptext p).
  Proof.
    destruct p as [[[rs sep] k] e]. intros [G HS]. unfold ptext. cbn [fst snd]. apply guarded_app.
    - destruct rs; [|exact I]. cbn [app guarded]. split; [discriminate|]. split; [discriminate|]. 
      change (guarded false (base_txt e)). unfold base_txt. apply guarded_app; [|apply guarded_E].
      destruct (N.eqb (t_before e) 0); [exact I|]. apply guarded_nohash. intros X.
      pose proof G as (_ & _ & _ & _ & HB & _). rewrite (dec_digit _ HB) in X.
      apply in_app_or in X as [X|X]; [cbn in X; intuition discriminate|]. apply in_app_or in X as [[X|[]]|[X|[]]]; [lia|discriminate].
    - cbn [body]. cbn [guarded]. split; [destruct HS; subst; discriminate|].
      assert (Z : forall q, guarded false (op_of (t_level e) ++ 32 :: key_text k e) -> guarded q (op_of (t_level e) ++ 32 :: key_text k e)).
      { intros q X. now apply guarded_weaken. }
      apply Z. apply guarded_app.
      + apply guarded_nohash. intros X. pose proof G as (_ & _ & _ & L & _). apply (op_ok _ L) in X as [X|X]; discriminate.
      + cbn [guarded]. split; [discriminate|]. apply guarded_key.
  Qed.
  Lemma guarded_tl s : guarded false s -> (forall c, hd_error s = Some c -> c <> 92) -> guarded false (tl s).
  Proof.
    destruct s as [|c s]; intros H Hc; [exact I|]. destruct H as [_ H]. specialize (Hc c eq_refl). apply N.eqb_neq in Hc. now rewrite Hc in H.
  Qed.
  Lemma parse_empty_run n c : parse_run ws isd dval n c [] = (c, None).
  Proof.
    unfold parse_run, run_bits. cbn [op_split]. change (strip ws []) with (@nil N). change (coll_unescape []) with (Ok (A := pystr) []).
    cbn [bind]. destruct (base_match ws isd dval []) as [[b bf]|]; reflexivity.
  Qed.
  Lemma read_pieces ps : Forall gp ps -> NoDup (map pkey ps) ->
    (forall p ps', ps = p :: ps' -> fst (fst (fst p)) = true) ->
    coll_parse ws isd dval [] (tl (flat_map ptext ps)) = (flat_ents 0 1 [] ps, None).
  Proof.
    intros HF ND HR. unfold coll_parse.
    assert (GT : guarded false (flat_map ptext ps)).
    { clear - HF SANE. induction HF as [|p ps H HF IH]; [exact I|]. cbn [flat_map]. apply guarded_app; [now apply guarded_ptext|exact IH]. }
    rewrite guarded_lines.
    2:{ apply guarded_tl; [exact GT|]. destruct ps as [|[[[rs sep] k] e] ps]; [discriminate|]. specialize (HR _ _ eq_refl). cbn [fst] in HR. subst rs.
        cbn. intros c X. injection X as <-. discriminate. }
    destruct (group_up_good ps HF) as [GL GG]. rewrite group_up_ents, group_up_text.
    rewrite (group_up_pieces ps), map_app in ND.
    destruct (group_up ps) as [l gs] eqn:EG. cbn [fst snd] in *.
    assert (l = []).
    { destruct ps as [|p ps]; [now injection EG|]. cbn [group_up] in EG. rewrite (HR _ _ eq_refl) in EG. destruct (group_up ps). now injection EG. }
    subst l. cbn [flat_map run_ents app] in *.
    destruct gs as [|g gs].
    - cbn [flat_map tl split_on parse_runs]. rewrite parse_empty_run. reflexivity.
    - cbn [flat_map app tl]. change (split_on 38 (38 :: ?x)) with ([] :: split_on 38 x).
      replace (split_on 38 (38 :: gtext g ++ flat_map (fun g0 => 10 :: 38 :: gtext g0) gs))
        with ([] :: split_on 38 (gtext g ++ flat_map (fun g0 => [10; 38] ++ gtext g0) gs)).
      2:{ symmetry. apply (split_on_app 38 []). intros []. }
      cbn [parse_runs]. rewrite parse_empty_run. rewrite split_groups by exact GG. 
      rewrite read_groups; [reflexivity|exact GG|exact ND].
  Qed.
End Runs.

(** * Writing the pieces *)
Section Write.
  Context {W : Type} (wcmp : W -> W -> comparison) (lt : W -> W -> Prop) (zero : W).
  Hypothesis L : lawful wcmp lt.
  Variable ws isM : N -> bool.
  Variable st : tstate (W := W).
  Hypothesis len3 : forall k v, key_at st k = Some v -> length v = 3%nat.

  (** the keys of [a] and [b] agree up to a level *)
  Definition agree (a b : pystr) (l : nat) : Prop :=
    (l <= 3)%nat /\ exists va vb, key_at st a = Some va /\ key_at st b = Some vb /\
      forall j, (j < l)%nat -> same_level zero (nth j va []) (nth j vb []).
  Lemma cmpKeys_agree a b l : exists r, cmpKeys wcmp zero st a (Some b) l = Ok r /\ (r = true <-> agree a b l).
  Proof.
    unfold cmpKeys. destruct (key_at st a) as [va|] eqn:A; [|exists false; split; [reflexivity|split; [discriminate|intros (_ & ? & ? & X & _); congruence]]].
    destruct (key_at st b) as [vb|] eqn:B; [|exists false; split; [reflexivity|split; [discriminate|intros (_ & ? & ? & _ & X & _); congruence]]].
    destruct (C07_cmpKey W wcmp lt zero va vb l L) as (r & -> & Hr). exists r. split; [reflexivity|]. rewrite Hr.
    rewrite (len3 _ _ A), (len3 _ _ B). split.
    - intros (X & _ & Y). split; [exact X|]. exists va, vb. auto.
    - intros (X & va' & vb' & A' & B' & Y). rewrite A in A'. rewrite B in B'. injection A' as <-. injection B' as <-. auto.
  Qed.

  (** [e] continues after the element [prev]: its base is as good as it *)
  Definition continues (prev : option (pystr * tel)) (e : tel) : Prop :=
    t_before e = 0 /\ exists pk pe, prev = Some (pk, pe) /\
      (agree (t_base e) pk (t_level e) \/ (t_level pe = 4%nat /\ t_base pe = t_base e)).
  (** which pieces are written for which elements *)
  Inductive pieces_for : option (pystr * tel) -> list (pystr * tel) -> list piece -> Prop :=
  | pf_nil prev : pieces_for prev [] []
  | pf_cons prev rs sep k e its ps : (rs = false -> continues prev e) -> sep = 10 \/ sep = 32 ->
      pieces_for (Some (k, e)) its ps -> pieces_for prev ((k, e) :: its) ((rs, sep, k, e) :: ps).

  Lemma eq_is_spec o b : eq_is o b = true <-> o = Some b.
  Proof. destruct o as [x|]; cbn; [|split; discriminate]. destruct (streq_spec x b) as [->|N]; split; intros H; congruence. Qed.

  Lemma write_pieces wrap : forall its prev w, (forall k e, In (k, e) its -> good_item ws k e) ->
    w_last w = option_map fst prev -> (forall b, w_eq w = Some b -> exists pk pe, prev = Some (pk, pe) /\ t_level pe = 4%nat /\ t_base pe = b) ->
    exists w' ps, write_all wcmp zero ws isM st wrap w its = Ok w' /\ w_res w' = w_res w ++ flat_map ptext ps /\ pieces_for prev its ps.
  Proof.
    induction its as [|[k e] its IH]; intros prev w G HL HE.
    - exists w, []. cbn. rewrite app_nil_r. repeat split; constructor.
    - cbn [write_all]. unfold write_one.
      pose proof (G k e (or_introl eq_refl)) as GI. pose proof GI as ((TK & NK) & (TB & NB) & HX & HLV & HBF & _).
      assert (RK : rstrip ws k = k).
      { destruct TK as [_ (y & m & -> & Hy)]. unfold rstrip. rewrite rev_app_distr. cbn [rev app lstrip]. rewrite Hy.
        change (y :: rev m) with ([y] ++ rev m). rewrite rev_app_distr, rev_involutive. reflexivity. }
      rewrite RK.
      assert (CM : exists r, cmpKeys wcmp zero st (t_base e) (w_last w) (t_level e) = Ok r /\
        (r = true -> exists pk pe, prev = Some (pk, pe) /\ agree (t_base e) pk (t_level e))).
      { rewrite HL. destruct prev as [[pk pe]|]; cbn [option_map fst].
        - destruct (cmpKeys_agree (t_base e) pk (t_level e)) as (r & E & Hr). exists r. split; [exact E|]. intros X. exists pk, pe. split; [reflexivity|now apply Hr].
        - exists false. split; [reflexivity|discriminate]. }
      destruct CM as (same & -> & HS). cbn [bind].
      set (reset := ((negb same && negb (eq_is (w_eq w) (t_base e))) || negb (N.eqb (t_before e) 0))%bool).
      set (loc := if reset then S (length (w_res w)) else w_loc w).
      set (r0 := if reset then w_res w ++ reset_text isM e else w_res w).
      set (long := (negb (Nat.eqb wrap 0) && Nat.ltb wrap (length r0 - loc))%bool). cbv zeta.
      assert (HC : reset = false -> continues prev e).
      { unfold reset. intros X. apply Bool.orb_false_iff in X as [X1 X2]. apply Bool.negb_false_iff, N.eqb_eq in X2.
        split; [exact X2|]. apply Bool.andb_false_iff in X1 as [X1|X1]; apply Bool.negb_false_iff in X1.
        - destruct (HS X1) as (pk & pe & E & A). exists pk, pe. auto.
        - apply eq_is_spec in X1. destruct (HE _ X1) as (pk & pe & E & A & B). exists pk, pe. auto. }
      match goal with |- context [WSt ?r ?l ?q (Some k)] => set (w1 := WSt r l q (Some k)) end.
      destruct (IH (Some (k, e)) w1) as (w' & ps & E1 & E2 & PF).
      + intros k' e' H'. apply G. now right.
      + reflexivity.
      + unfold w1. cbn [w_eq]. intros b. destruct (Nat.eqb_spec (t_level e) 4) as [E4|_]; [|discriminate].
        destruct reset eqn:ER.
        * intros X. injection X as <-. exists k, e. auto.
        * destruct (w_eq w) as [q|] eqn:EQ; intros X; injection X as <-; [|exists k, e; auto].
          destruct (HC eq_refl) as [_ (pk & pe & EP & [[A _]|[A B]])]; [lia|].
          destruct (HE q eq_refl) as (pk2 & pe2 & EP2 & A2 & B2). rewrite EP in EP2. injection EP2 as <- <-. exists k, e. 
          repeat split; auto. congruence.
      + exists w', ((reset, if long then 10 else 32, k, e) :: ps). split; [exact E1|]. split.
        * rewrite E2. unfold w1. cbn [w_res flat_map ptext fst snd body]. 
          assert (EK : rel_text isM k e = op_of (t_level e) ++ 32 :: key_text k e).
          { unfold rel_text, key_text, op_text, op_of, esc. rewrite escape_false.
            assert (EX : match t_exp e with [] => [] | x => 47 :: coll_escape isM false x end = match t_exp e with [] => [] | x => 47 :: E x end).
            { destruct (t_exp e); [reflexivity|now rewrite escape_false]. }
            rewrite EX. destruct (Nat.eqb (t_level e) 4); [reflexivity|]. now rewrite <- app_assoc. }
          rewrite EK. assert (ER : r0 = w_res w ++ if reset then [10; 38] ++ base_txt e else []).
          { unfold r0. destruct reset; [|now rewrite app_nil_r]. unfold reset_text, base_txt, esc. now rewrite escape_false. }
          rewrite ER. unfold ptext at 2. cbn [fst snd body]. rewrite <- !app_assoc. cbn [app]. rewrite <- ?app_assoc. reflexivity.
        * constructor; [exact HC|destruct long; auto|exact PF].
  Qed.

  Lemma pieces_good prev its ps : pieces_for prev its ps -> (forall k e, In (k, e) its -> good_item ws k e) ->
    Forall (good_piece ws) ps /\ map pkey ps = map fst its.
  Proof.
    induction 1 as [|prev rs sep k e its ps HC HS PF IH]; intros G; [split; [constructor|reflexivity]|].
    destruct IH as [A B]; [intros; apply G; now right|]. split; [|cbn [map fst pkey snd]; now rewrite B].
    constructor; [|exact A]. split; [apply G; now left|exact HS].
  Qed.
End Write.

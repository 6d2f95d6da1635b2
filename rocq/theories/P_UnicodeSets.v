(** Proofs about the model of UnicodeSets.py. *)
From Verif Require Import Py PyFacts M_UnicodeSets.
Open Scope N_scope.

(** * Characters *)
Lemma syntax_cases c :
  inchars c us_syntax = true <->
  c = 91 \/ c = 93 \/ c = 123 \/ c = 125 \/ c = 92 \/ c = 38 \/ c = 45 \/ c = 124 \/ c = 94 \/ c = 36 \/ c = 58.
Proof.
  rewrite inchars_spec. cbn. intuition congruence.
Qed.

Lemma syntax_false c :
  inchars c us_syntax = false <->
  c <> 91 /\ c <> 93 /\ c <> 123 /\ c <> 125 /\ c <> 92 /\ c <> 38 /\ c <> 45 /\ c <> 124 /\ c <> 94 /\ c <> 36 /\ c <> 58.
Proof.
  rewrite inchars_false. cbn. intuition congruence.
Qed.

Lemma is_hex_cases c : is_hex c = true -> (48 <= c <= 57) \/ (65 <= c <= 70) \/ (97 <= c <= 102).
Proof.
  unfold is_hex, is_upper_hex, is_digit. intros H.
  repeat (apply orb_prop in H; destruct H as [H|H]);
    apply andb_prop in H as [H1 H2]; apply N.leb_le in H1, H2; lia.
Qed.
Lemma hex_not_syntax c : is_hex c = true -> inchars c us_syntax = false.
Proof. intros H. apply is_hex_cases in H. apply syntax_false. lia. Qed.

(** * Regular expression substitution *)
Lemma resub_skip at_ p t : resub at_ (length p) (p ++ t) = resub at_ 0 t.
Proof. induction p as [|c p IH]; cbn; [destruct t; reflexivity|exact IH]. Qed.

Lemma resub_none at_ c t :
  at_ (c :: t) = None -> resub at_ 0 (c :: t) = do b <- resub at_ 0 t; Ok (c :: b).
Proof. intros H. cbn [resub]. rewrite H. reflexivity. Qed.

Lemma resub_hit at_ p t r :
  p <> [] -> at_ (p ++ t) = Some (length p, Ok r) ->
  resub at_ 0 (p ++ t) = do b <- resub at_ 0 t; Ok (r ++ b).
Proof.
  destruct p as [|c p]; [congruence|]. intros _ H.
  cbn [app resub] in *. rewrite H. cbn [bind length].
  replace (S (length p) - 1)%nat with (length p) by lia.
  rewrite resub_skip. reflexivity.
Qed.

Lemma bind_assoc {A B C} (r : res A) (f : A -> res B) (g : B -> res C) :
  bind (bind r f) g = bind r (fun x => bind (f x) g).
Proof. destruct r; reflexivity. Qed.

(** * Encoded text *)
Definition hexat := fun s => match hexesc_at s with
                  | Some (n, v) => Some (n, do c <- pychr v; Ok (escapechar c))
                  | None => None end.
Lemma hexescre_sub_eq s : hexescre_sub s = resub hexat 0 s.
Proof. reflexivity. Qed.

Lemma hexesc_at_no92 c t : c <> 92 -> hexesc_at (c :: t) = None.
Proof.
  intros H. unfold hexesc_at.
  destruct c as [|p]; [reflexivity|].
  repeat (try reflexivity; destruct p as [p|p|]; try reflexivity; try congruence).
Qed.

Lemma hexat_none s : hexesc_at s = None -> hexat s = None.
Proof. unfold hexat. intros ->. reflexivity. Qed.

Lemma hexesc_at_92 c t : c <> 117 -> c <> 85 -> c <> 120 -> hexesc_at (92 :: c :: t) = None.
Proof.
  intros H1 H2 H3. unfold hexesc_at.
  destruct c as [|p]; [reflexivity|].
  repeat (try reflexivity; destruct p as [p|p|]; try reflexivity; try congruence).
Qed.

Lemma hexesc_at_U t : hexesc_at (92 :: 85 :: t) =
  match take_hex 8 t with Some h => Some (10%nat, hexnum h) | None => None end.
Proof. reflexivity. Qed.
Lemma hexesc_at_x t : hexesc_at (92 :: 120 :: t) =
  match take_hex 2 t with Some h => Some (4%nat, hexnum h) | None => None end.
Proof. reflexivity. Qed.
Lemma hexesc_at_u t :
  (forall t', t <> 120 :: 123 :: t') ->
  hexesc_at (92 :: 117 :: t) =
  match take_hex 4 t with Some h => Some (6%nat, hexnum h) | None => None end.
Proof.
  intros H. unfold hexesc_at.
  destruct t as [|a t]; [reflexivity|].
  destruct (N.eq_dec a 120) as [->|Ha].
  - destruct t as [|b t]; [reflexivity|].
    destruct (N.eq_dec b 123) as [->|Hb]; [exfalso; now apply (H t)|].
    destruct b as [|p]; [reflexivity|].
    repeat (try reflexivity; destruct p as [p|p|]; try reflexivity; try congruence).
  - destruct a as [|p]; [reflexivity|].
    repeat (try reflexivity; destruct p as [p|p|]; try reflexivity; try congruence).
Qed.

Lemma take_hex_app n h t :
  length h = n -> forallb is_hex h = true -> take_hex n (h ++ t) = Some h.
Proof.
  revert h; induction n as [|n IH]; intros [|c h] Hl Hh; cbn in *; try discriminate; [reflexivity|].
  apply andb_prop in Hh as [Hc Hh]. rewrite Hc, (IH h); auto.
Qed.

Lemma hexesc_at_escaped c t : c < 1114112 ->
  hexesc_at (escape_using_hex c ++ t) = Some (length (escape_using_hex c), c).
Proof.
  intros Hc. unfold escape_using_hex. destruct (N.ltb_spec 65535 c) as [H|H].
  - change (lit "\U" ++ hexpad 8 c) with (92 :: 85 :: hexpad 8 c).
    rewrite <- !app_comm_cons, hexesc_at_U, take_hex_app
      by (apply hexpad_length || apply hexpad_hex).
    rewrite hexnum_hexpad by (change (16 ^ N.of_nat 8) with 4294967296; lia).
    cbn [length]. rewrite hexpad_length. reflexivity.
  - change (lit "\u" ++ hexpad 4 c) with (92 :: 117 :: hexpad 4 c).
    rewrite <- !app_comm_cons, hexesc_at_u.
    + rewrite take_hex_app by (apply hexpad_length || apply hexpad_hex).
      rewrite hexnum_hexpad by (change (16 ^ N.of_nat 4) with 65536; lia).
      cbn [length]. rewrite hexpad_length. reflexivity.
    + intros t' E. pose proof (hexpad_hex 4 c) as Hh. pose proof (hexpad_length 4 c) as Hl.
      destruct (hexpad 4 c) as [|a l]; [discriminate|].
      cbn [app] in E. injection E as -> _. cbn in Hh. discriminate.
Qed.

Section Enc.
  Variable need : N -> bool -> bool.
  Hypothesis need_ok : forall c iso, need c iso = true -> inchars c us_syntax = false.

  Definition tail_ok (T : pystr) : Prop :=
    match T with [] => False | c :: _ => c = 125 \/ c = 32 \/ c = 93 end.

  Lemma enc_syntax iso c s : inchars c us_syntax = true ->
    hex_escape need iso (escape_us_syntax (c :: s)) =
    92 :: c :: hex_escape need false (escape_us_syntax s).
  Proof.
    intros H. cbn [escape_us_syntax flat_map]. unfold escapechar at 1. rewrite H. cbn [app hex_escape].
    destruct (need 92 iso) eqn:E; [apply need_ok in E; discriminate|].
    change (92 =? 32) with false.
    destruct (need c false) eqn:E'; [apply need_ok in E'; congruence|].
    replace (c =? 32) with false; [reflexivity|].
    symmetry; apply N.eqb_neq. intros ->. discriminate.
  Qed.
  Lemma enc_hex iso c s : inchars c us_syntax = false -> need c iso = true ->
    hex_escape need iso (escape_us_syntax (c :: s)) =
    escape_using_hex c ++ hex_escape need false (escape_us_syntax s).
  Proof.
    intros H Hn. cbn [escape_us_syntax flat_map]. unfold escapechar at 1. rewrite H. cbn [app hex_escape].
    rewrite Hn. reflexivity.
  Qed.
  Lemma enc_plain iso c s : inchars c us_syntax = false -> need c iso = false ->
    hex_escape need iso (escape_us_syntax (c :: s)) =
    c :: hex_escape need (N.eqb c 32) (escape_us_syntax s).
  Proof.
    intros H Hn. cbn [escape_us_syntax flat_map]. unfold escapechar at 1. rewrite H. cbn [app hex_escape].
    rewrite Hn. reflexivity.
  Qed.

  (** first character of the encoding *)
  Lemma enc_head iso s c t T :
    tail_ok T -> hex_escape need iso (escape_us_syntax s) ++ T = c :: t -> c <> 92 ->
    ~ (c = 125 \/ c = 32 \/ c = 93) ->
    exists s' iso', s = c :: s' /\ inchars c us_syntax = false /\
      t = hex_escape need iso' (escape_us_syntax s') ++ T.
  Proof.
    intros HT E Hc Hnt.
    destruct s as [|a s]; cbn [app hex_escape escape_us_syntax flat_map] in E.
    - destruct T as [|x T]; [destruct HT|]. injection E as -> ->. now elim Hnt.
    - change (flat_map escapechar) with escape_us_syntax in E.
      change (escapechar a ++ escape_us_syntax s) with (escape_us_syntax (a :: s)) in E.
      destruct (inchars a us_syntax) eqn:Ha.
      + rewrite enc_syntax in E by exact Ha. injection E as <- _. congruence.
      + destruct (need a iso) eqn:En.
        * rewrite enc_hex in E by assumption. unfold escape_using_hex in E.
          destruct (65535 <? a); injection E as <- _; congruence.
        * rewrite enc_plain in E by assumption. injection E as -> <-. eauto.
  Qed.

  Lemma take_hex_enc n : forall iso s T h,
    tail_ok T -> take_hex n (hex_escape need iso (escape_us_syntax s) ++ T) = Some h ->
    exists t, s = h ++ t /\ length h = n /\ forallb is_hex h = true.
  Proof.
    induction n as [|n IH]; intros iso s T h HT E; cbn [take_hex] in E.
    - injection E as <-. exists s. auto.
    - destruct (hex_escape need iso (escape_us_syntax s) ++ T) as [|c u] eqn:Et; [discriminate|].
      destruct (is_hex c) eqn:Hc; [|discriminate].
      destruct (take_hex n u) as [h'|] eqn:E'; [|discriminate]. injection E as <-.
      pose proof (is_hex_cases c Hc) as Hr.
      destruct (enc_head iso s c u T HT Et) as (s' & iso' & -> & _ & ->); [lia|lia|].
      destruct (IH iso' s' T h' HT E') as (t & -> & Hl & Hf).
      exists t. cbn. rewrite Hl, Hc, Hf. auto.
  Qed.

  Definition hex_tail (s : pystr) : Prop :=
    exists h t, forallb is_hex h = true /\
      ((s = 117 :: h ++ t /\ length h = 4%nat) \/ (s = 85 :: h ++ t /\ length h = 8%nat)
       \/ (s = 120 :: h ++ t /\ length h = 2%nat)).

  Lemma hexesc_at_enc iso s T :
    tail_ok T -> ~ hex_tail s ->
    hexesc_at (92 :: hex_escape need iso (escape_us_syntax s) ++ T) = None.
  Proof.
    intros HT Hs.
    destruct (hex_escape need iso (escape_us_syntax s) ++ T) as [|c u] eqn:Et; [reflexivity|].
    destruct (N.eq_dec c 117) as [->|H1].
    { destruct (enc_head iso s 117 u T HT Et) as (s' & iso' & -> & _ & ->); [lia|lia|].
      rewrite hexesc_at_u.
      - destruct (take_hex 4 _) as [h|] eqn:Eh; [|reflexivity].
        apply take_hex_enc in Eh; [|exact HT]. destruct Eh as (t & -> & Hl & Hf).
        exfalso. apply Hs. exists h, t. auto.
      - intros t' E.
        destruct (enc_head iso' s' 120 _ T HT E) as (s2 & iso2 & -> & _ & E2); [lia|lia|].
        destruct (enc_head iso2 s2 123 _ T HT (eq_sym E2)) as (s3 & iso3 & _ & E3 & _); [lia|lia|].
        discriminate. }
    destruct (N.eq_dec c 85) as [->|H2].
    { destruct (enc_head iso s 85 u T HT Et) as (s' & iso' & -> & _ & ->); [lia|lia|].
      rewrite hexesc_at_U.
      destruct (take_hex 8 _) as [h|] eqn:Eh; [|reflexivity].
      apply take_hex_enc in Eh; [|exact HT]. destruct Eh as (t & -> & Hl & Hf).
      exfalso. apply Hs. exists h, t. auto. }
    destruct (N.eq_dec c 120) as [->|H3].
    { destruct (enc_head iso s 120 u T HT Et) as (s' & iso' & -> & _ & ->); [lia|lia|].
      rewrite hexesc_at_x.
      destruct (take_hex 2 _) as [h|] eqn:Eh; [|reflexivity].
      apply take_hex_enc in Eh; [|exact HT]. destruct Eh as (t & -> & Hl & Hf).
      exfalso. apply Hs. exists h, t. auto. }
    now apply hexesc_at_92.
  Qed.

  (** hexescre leaves the encoding with its hex escapes undone *)
  Lemma hexsub_enc s : forall iso T,
    tail_ok T ->
    (forall c, In c s -> c < 1114112) ->
    (forall p q, s = p ++ 92 :: q -> ~ hex_tail q) ->
    resub hexat 0 (hex_escape need iso (escape_us_syntax s) ++ T) =
    do b <- resub hexat 0 T; Ok (escape_us_syntax s ++ b).
  Proof.
    induction s as [|c s IH]; intros iso T HT Hc Hb.
    - cbn [hex_escape escape_us_syntax flat_map app].
      destruct (resub hexat 0 T); reflexivity.
    - assert (IH' : forall iso T, tail_ok T -> resub hexat 0 (hex_escape need iso (escape_us_syntax s) ++ T) =
        do b <- resub hexat 0 T; Ok (escape_us_syntax s ++ b)).
      { intros iso' T' HT'. apply IH; auto.
        - intros x Hx. apply Hc. now right.
        - intros p q E. apply (Hb (c :: p) q). rewrite E. reflexivity. }
      clear IH.
      destruct (inchars c us_syntax) eqn:Hs.
      + rewrite enc_syntax by exact Hs. rewrite <- !app_comm_cons.
        rewrite resub_none.
        2:{ apply hexat_none, hexesc_at_92; intros ->; discriminate. }
        rewrite resub_none.
        2:{ apply hexat_none. destruct (N.eq_dec c 92) as [->|Hn].
            - apply hexesc_at_enc; [exact HT|]. apply (Hb [] s). reflexivity.
            - now apply hexesc_at_no92. }
        rewrite IH' by exact HT. rewrite !bind_assoc.
        assert (E : escape_us_syntax (c :: s) = 92 :: c :: escape_us_syntax s).
        { cbn [escape_us_syntax flat_map]. unfold escapechar at 1. rewrite Hs. reflexivity. }
        rewrite E. destruct (resub hexat 0 T); reflexivity.
      + assert (E : escape_us_syntax (c :: s) = c :: escape_us_syntax s).
        { cbn [escape_us_syntax flat_map]. unfold escapechar at 1. rewrite Hs. reflexivity. }
        destruct (need c iso) eqn:Hn.
        * rewrite enc_hex by assumption. rewrite <- app_assoc.
          rewrite resub_hit with (r := [c]).
          -- rewrite IH' by exact HT. rewrite bind_assoc, E.
             destruct (resub hexat 0 T); reflexivity.
          -- unfold escape_using_hex. destruct (65535 <? c); discriminate.
          -- unfold hexat. rewrite hexesc_at_escaped by (apply Hc; now left).
             unfold pychr. rewrite (proj2 (N.ltb_lt _ _)) by (apply Hc; now left).
             cbn [bind]. unfold escapechar. rewrite Hs. reflexivity.
        * rewrite enc_plain by assumption. rewrite <- app_comm_cons.
          rewrite resub_none.
          -- rewrite IH' by exact HT. rewrite bind_assoc, E.
             destruct (resub hexat 0 T); reflexivity.
          -- apply hexat_none, hexesc_at_no92. intros ->. discriminate.
  Qed.
End Enc.

(** * The text without hex escapes *)
Definition noesc : N -> bool -> bool := fun _ _ => false.
Lemma hex_escape_noesc iso s : hex_escape noesc iso s = s.
Proof. revert iso; induction s as [|c s IH]; intros; cbn; [reflexivity|]. now rewrite IH. Qed.

Definition pitem (s : pystr) : pystr :=
  if Nat.ltb 1 (length s) then 123 :: escape_us_syntax s ++ [125] else escape_us_syntax s.
Lemma us_item_noesc s : us_item noesc s = pitem s.
Proof. unfold us_item, pitem. now rewrite hex_escape_noesc. Qed.

(** what the strings must satisfy *)
Definition string_ok (s : pystr) : Prop :=
  s <> [] /\ (forall c, In c s -> c < 1114112 /\ c <> 32) /\
  (forall p q, s = p ++ 92 :: q ->
     (p = [] /\ q = []) \/ (q <> [] /\ ~ hex_tail q /\ (forall t, q <> 93 :: t))).

Lemma string_ok_hex s : string_ok s -> forall p q, s = p ++ 92 :: q -> ~ hex_tail q.
Proof.
  intros (_ & _ & H) p q E. destruct (H p q E) as [[_ ->]|(_ & Hh & _)]; [|exact Hh].
  intros (h & t & _ & [[E' _]|[[E' _]|[E' _]]]); discriminate.
Qed.

Section Sub1.
  Variable need : N -> bool -> bool.
  Hypothesis need_ok : forall c iso, need c iso = true -> inchars c us_syntax = false.

  Lemma hexsub_item s T :
    string_ok s -> tail_ok T ->
    resub hexat 0 (us_item need s ++ T) = do b <- resub hexat 0 T; Ok (pitem s ++ b).
  Proof.
    intros Hs HT. unfold us_item, pitem.
    assert (Hc : forall c, In c s -> c < 1114112) by (intros c Hin; apply Hs; exact Hin).
    destruct (Nat.ltb 1 (length s)).
    - rewrite <- app_comm_cons, <- app_assoc.
      rewrite resub_none by reflexivity.
      rewrite hexsub_enc; auto.
      + cbn [app]. rewrite resub_none by reflexivity. rewrite !bind_assoc.
        destruct (resub hexat 0 T); cbn [bind app]; [|reflexivity].
        now rewrite <- app_assoc.
      + cbn. auto.
      + now apply string_ok_hex.
    - apply hexsub_enc; auto. now apply string_ok_hex.
  Qed.

  Lemma hexsub_join l :
    Forall string_ok l ->
    resub hexat 0 (join [32] (map (us_item need) l) ++ [93]) = Ok (join [32] (map pitem l) ++ [93]).
  Proof.
    induction l as [|s l IH]; intros Hl; [reflexivity|].
    inversion Hl as [|? ? Hs Hl']; subst. specialize (IH Hl').
    destruct l as [|s2 l].
    - cbn [map join]. rewrite hexsub_item by (cbn; auto). reflexivity.
    - change (join [32] (map (us_item need) (s :: s2 :: l))) with
        (us_item need s ++ [32] ++ join [32] (map (us_item need) (s2 :: l))).
      change (join [32] (map pitem (s :: s2 :: l))) with
        (pitem s ++ [32] ++ join [32] (map pitem (s2 :: l))).
      rewrite <- !app_assoc. rewrite hexsub_item by (cbn; auto).
      change ([32] ++ join [32] (map (us_item need) (s2 :: l)) ++ [93]) with
        (32 :: (join [32] (map (us_item need) (s2 :: l)) ++ [93])).
      rewrite resub_none by reflexivity. rewrite IH. reflexivity.
  Qed.

  Lemma hexescre_list2us l :
    Forall string_ok l -> hexescre_sub (list2us need l) = Ok (91 :: join [32] (map pitem l) ++ [93]).
  Proof.
    intros Hl. rewrite hexescre_sub_eq. unfold list2us.
    rewrite resub_none by reflexivity. rewrite hexsub_join by exact Hl. reflexivity.
  Qed.
End Sub1.

(** * The second substitution changes nothing *)
Definition gat := fun s => match hexgre_at s with
                  | Some (n, v) => Some (n, do c <- pychr v; Ok (123 :: escapechar c ++ [125]))
                  | None => None end.

Lemma hexgre_at_none s : (forall t, s <> 92 :: 117 :: 123 :: t) -> hexgre_at s = None.
Proof.
  intros H. unfold hexgre_at.
  destruct s as [|a s]; [reflexivity|].
  destruct (N.eq_dec a 92) as [->|Ha].
  2:{ destruct a as [|p]; [reflexivity|].
      repeat (try reflexivity; destruct p as [p|p|]; try reflexivity; try congruence). }
  destruct s as [|b s]; [reflexivity|].
  destruct (N.eq_dec b 117) as [->|Hb].
  2:{ destruct b as [|p]; [reflexivity|].
      repeat (try reflexivity; destruct p as [p|p|]; try reflexivity; try congruence). }
  destruct s as [|c s]; [reflexivity|].
  destruct (N.eq_dec c 123) as [->|Hc]; [now elim (H s)|].
  destruct c as [|p]; [reflexivity|].
  repeat (try reflexivity; destruct p as [p|p|]; try reflexivity; try congruence).
Qed.

Lemma resub_id at_ s : (forall p q, s = p ++ q -> at_ q = None) -> resub at_ 0 s = Ok s.
Proof.
  induction s as [|c s IH]; intros H; [reflexivity|].
  rewrite resub_none by (apply (H [] (c :: s)); reflexivity).
  rewrite IH; [reflexivity|]. intros p q E. apply (H (c :: p) q). now rewrite E.
Qed.

(** an unescaped opening brace is never preceded by [u]: a brace of the text is preceded by
    a backslash, a bracket, a space or by the end of the previous item *)
Fixpoint no_u_brace (p1 : N) (s : pystr) : Prop :=
  match s with [] => True | c :: s' => ~ (p1 = 117 /\ c = 123) /\ no_u_brace c s' end.
Lemma no_u_brace_spec s : forall p1, no_u_brace p1 s -> forall p q, s <> p ++ 117 :: 123 :: q.
Proof.
  induction s as [|c s IH]; intros p1 H p q E; [destruct p; discriminate|].
  destruct H as [Hh Ht]. destruct p as [|x p]; cbn in E.
  - injection E as -> ->. cbn in Ht. tauto.
  - injection E as -> ->. now apply (IH x Ht p q).
Qed.
Lemma no_u_brace_app a b p1 :
  no_u_brace p1 (a ++ b) <-> no_u_brace p1 a /\ no_u_brace (last a p1) b.
Proof.
  revert p1; induction a as [|c a IH]; intros p1; cbn [app no_u_brace].
  - cbn. tauto.
  - rewrite IH. replace (last (c :: a) p1) with (last a c); [tauto|].
    destruct a; [reflexivity|]. clear. cbn [last].
    revert n; induction a as [|y a IH]; intros; [reflexivity|]. cbn in *. apply IH.
Qed.
Lemma last_app_cons {A} (a : list A) x d : last (a ++ [x]) d = x.
Proof. apply last_last. Qed.
Lemma no_u_brace_esc s p1 : no_u_brace p1 (escape_us_syntax s).
Proof.
  revert p1; induction s as [|c s IH]; intros p1; [exact I|].
  cbn [escape_us_syntax flat_map]. unfold escapechar at 1.
  destruct (inchars c us_syntax) eqn:E; cbn [app no_u_brace].
  - repeat split; [intros [_ H]; discriminate|intros [H _]; discriminate|apply IH].
  - split; [intros [_ ->]; discriminate|apply IH].
Qed.
Lemma no_u_brace_pitem s p1 : p1 <> 117 -> no_u_brace p1 (pitem s).
Proof.
  intros H. unfold pitem. destruct (Nat.ltb 1 (length s)); [|apply no_u_brace_esc].
  cbn [no_u_brace]. split; [tauto|]. apply no_u_brace_app. split; [apply no_u_brace_esc|].
  cbn. split; [|exact I]. intros [_ E]; discriminate.
Qed.

Lemma no_u_brace_join l p1 : p1 <> 117 -> no_u_brace p1 (join [32] (map pitem l)).
Proof.
  revert p1; induction l as [|s l IH]; intros p1 H; [exact I|].
  destruct l as [|s2 l]; [now apply no_u_brace_pitem|].
  change (join [32] (map pitem (s :: s2 :: l))) with
        (pitem s ++ 32 :: join [32] (map pitem (s2 :: l))).
  apply no_u_brace_app. split; [now apply no_u_brace_pitem|].
  cbn [no_u_brace]. split; [intros [_ E]; discriminate|]. apply IH. discriminate.
Qed.

Lemma hexgre_plain l :
  hexgre_sub (91 :: join [32] (map pitem l) ++ [93]) = Ok (91 :: join [32] (map pitem l) ++ [93]).
Proof.
  unfold hexgre_sub. apply resub_id. intros p q E.
  fold gat. rewrite hexgre_at_none; [reflexivity|].
  intros t ->.
  apply (no_u_brace_spec (91 :: join [32] (map pitem l) ++ [93]) 0) with (p := p ++ [92]) (q := t).
  - cbn [no_u_brace]. split; [lia|]. apply no_u_brace_app. split.
    + apply no_u_brace_join. discriminate.
    + cbn. split; [lia|exact I].
  - rewrite E, <- app_assoc. reflexivity.
Qed.

(** * Removing the spaces *)
Definition nosp (c : N) : bool := negb (N.eqb c 32).
Lemma filter_id {A} (f : A -> bool) l : (forall x, In x l -> f x = true) -> filter f l = l.
Proof.
  induction l as [|x l IH]; intros H; [reflexivity|]. cbn. rewrite H by now left.
  rewrite IH; [reflexivity|]. intros y Hy. apply H. now right.
Qed.
Lemma esc_nosp s : (forall c, In c s -> c <> 32) -> forall c, In c (escape_us_syntax s) -> nosp c = true.
Proof.
  intros H c Hin. unfold escape_us_syntax in Hin. apply in_flat_map in Hin as (x & Hx & Hc).
  unfold escapechar in Hc. apply H in Hx. unfold nosp.
  destruct (inchars x us_syntax); cbn in Hc.
  - destruct Hc as [<-|[<-|[]]]; [reflexivity|]. now apply N.eqb_neq in Hx as ->.
  - destruct Hc as [<-|[]]. now apply N.eqb_neq in Hx as ->.
Qed.
Lemma pitem_nosp s : string_ok s -> filter nosp (pitem s) = pitem s.
Proof.
  intros (_ & H & _). apply filter_id. intros c Hc.
  assert (He : In c (escape_us_syntax s) -> nosp c = true).
  { apply esc_nosp. intros x Hx. now apply H. }
  unfold pitem in Hc. destruct (Nat.ltb 1 (length s)); [|auto].
  destruct Hc as [<-|Hc]; [reflexivity|].
  apply in_app_or in Hc as [Hc|[<-|[]]]; auto.
Qed.
Lemma filter_join l : Forall string_ok l ->
  filter nosp (join [32] (map pitem l)) = concat (map pitem l).
Proof.
  induction l as [|s l IH]; intros H; [reflexivity|]. inversion H; subst.
  destruct l as [|s2 l].
  - cbn. rewrite app_nil_r. now apply pitem_nosp.
  - change (join [32] (map pitem (s :: s2 :: l))) with
        (pitem s ++ 32 :: join [32] (map pitem (s2 :: l))).
    rewrite filter_app, pitem_nosp by assumption. cbn [filter nosp N.eqb].
    change (nosp 32) with false. cbn [negb]. rewrite IH by assumption. reflexivity.
Qed.

(** * Searching for the closing bracket or brace *)
Lemma index_from_ok c s : forall i t,
  nth_error s t = Some c -> (i <= t)%nat ->
  exists k, index_from c s i = Ok k /\ (i <= k <= t)%nat /\ nth_error s k = Some c.
Proof.
  induction s as [|x s IH]; intros i t Ht Hi; [destruct t; discriminate|].
  cbn [index_from]. destruct i as [|i].
  - destruct (N.eqb_spec x c) as [->|Hx].
    + exists O. repeat split; auto with arith.
    + destruct t as [|t]; [cbn in Ht; congruence|].
      destruct (IH O t Ht) as (k & -> & Hk & Hn); [lia|].
      exists (S k). repeat split; try lia. exact Hn.
  - destruct t as [|t]; [lia|].
    destruct (IH i t Ht) as (k & -> & Hk & Hn); [lia|].
    exists (S k). repeat split; try lia. exact Hn.
Qed.

Definition brk_test s e := (negb (Nat.eqb e 0) && opt_is (nth_error s (e - 1)) 92 && negb (opt_is (char_before2 s e) 92))%bool.
Definition brc_test s e := (negb (Nat.eqb e 0) && opt_is (nth_error s (e - 1)) 92)%bool.

Lemma close_class_ok s t fuel : forall e,
  (e <= t)%nat -> (t <= e + fuel)%nat ->
  nth_error s t = Some 93 -> nth_error s e = Some 93 ->
  brk_test s t = false ->
  (forall j, (e <= j < t)%nat -> nth_error s j = Some 93 -> brk_test s j = true) ->
  close_class fuel s e = Ok t.
Proof.
  induction fuel as [|f IH]; intros e He Hf Ht Hn Htt Hall; cbn [close_class]; fold (brk_test s e).
  - assert (e = t) by lia. subst. rewrite Htt. reflexivity.
  - destruct (Nat.eq_dec e t) as [->|Hne]; [rewrite Htt; reflexivity|].
    rewrite Hall; [|lia|exact Hn].
    destruct (index_from_ok 93 s (e + 1) t Ht) as (k & -> & Hk & Hkn); [lia|].
    cbn [bind]. apply IH; auto; try lia. intros j Hj. apply Hall. lia.
Qed.
Lemma close_brace_ok s t fuel : forall e,
  (e <= t)%nat -> (t <= e + fuel)%nat ->
  nth_error s t = Some 125 -> nth_error s e = Some 125 ->
  brc_test s t = false ->
  (forall j, (e <= j < t)%nat -> nth_error s j = Some 125 -> brc_test s j = true) ->
  close_brace fuel s e = Ok t.
Proof.
  induction fuel as [|f IH]; intros e He Hf Ht Hn Htt Hall; cbn [close_brace]; fold (brc_test s e).
  - assert (e = t) by lia. subst. rewrite Htt. reflexivity.
  - destruct (Nat.eq_dec e t) as [->|Hne]; [rewrite Htt; reflexivity|].
    rewrite Hall; [|lia|exact Hn].
    destruct (index_from_ok 125 s (e + 1) t Ht) as (k & -> & Hk & Hkn); [lia|].
    cbn [bind]. apply IH; auto; try lia. intros j Hj. apply Hall. lia.
Qed.

(** bracket discipline: state is the pair of the two characters before *)
Definition st (p : N * N) (a : pystr) : N * N := fold_left (fun p c => (snd p, c)) a p.
Fixpoint brk_ok (p : N * N) (s : pystr) : Prop :=
  match s with
  | [] => True
  | c :: s' => (c = 93 -> snd p = 92 /\ fst p <> 92) /\ brk_ok (snd p, c) s'
  end.
Lemma st_app p a b : st p (a ++ b) = st (st p a) b.
Proof. unfold st. apply fold_left_app. Qed.
Lemma brk_ok_app a b p : brk_ok p (a ++ b) <-> brk_ok p a /\ brk_ok (st p a) b.
Proof.
  revert p; induction a as [|c a IH]; intros p; cbn [app brk_ok]; [cbn; tauto|].
  rewrite IH. cbn. tauto.
Qed.
Lemma st_esc_last s p : s <> [] -> snd (st p (escape_us_syntax s)) = last s 0.
Proof.
  revert p; induction s as [|c s IH]; intros p H; [congruence|].
  cbn [escape_us_syntax flat_map]. change (flat_map escapechar s) with (escape_us_syntax s).
  rewrite st_app. destruct s as [|c2 s].
  - cbn. unfold escapechar. destruct (inchars c us_syntax); reflexivity.
  - rewrite IH by discriminate. reflexivity.
Qed.
Lemma brk_esc s : forall p,
  (snd p = 92 -> forall t, s <> 93 :: t) ->
  (forall a b, s = a ++ 92 :: b -> forall t, b <> 93 :: t) ->
  brk_ok p (escape_us_syntax s).
Proof.
  induction s as [|c s IH]; intros [p2 p1] H1 H2; [exact I|].
  cbn [escape_us_syntax flat_map]. change (flat_map escapechar s) with (escape_us_syntax s).
  apply brk_ok_app. split.
  - unfold escapechar. destruct (inchars c us_syntax) eqn:E; cbn.
    + split; [discriminate|]. split; [|exact I]. intros ->. split; [reflexivity|].
      intros Hp. now apply (H1 Hp s).
    + split; [|exact I]. intros ->. discriminate.
  - apply IH.
    + intros Hs t ->. assert (Hc : c = 92).
      { revert Hs. unfold escapechar. destruct (inchars c us_syntax); cbn; auto. }
      subst c. apply (H2 [] (93 :: t) eq_refl t eq_refl).
    + intros a b E. apply (H2 (c :: a) b). now rewrite E.
Qed.

Lemma st_pitem s p : s <> [] -> string_ok s ->
  st p (pitem s) = (fst (st p (pitem s)), if Nat.ltb 1 (length s) then 125 else last s 0).
Proof.
  intros Hne Hs. unfold pitem. destruct (Nat.ltb 1 (length s)).
  - change (123 :: escape_us_syntax s ++ [125]) with ((123 :: escape_us_syntax s) ++ [125]).
    rewrite st_app. cbn. reflexivity.
  - rewrite <- (st_esc_last s p Hne). destruct (st p (escape_us_syntax s)); reflexivity.
Qed.

Lemma st_pitem_92 s p : string_ok s -> snd (st p (pitem s)) = 92 -> s = [92] /\ fst (st p (pitem s)) = 92.
Proof.
  intros Hs. rewrite st_pitem by (try exact Hs; apply Hs). cbn [snd fst].
  destruct (Nat.ltb_spec 1 (length s)) as [Hl|Hl]; [discriminate|].
  destruct Hs as (Hne & _). destruct s as [|c [|c2 s]]; [congruence| |cbn in Hl; lia].
  cbn [last]. intros ->. split; [reflexivity|]. reflexivity.
Qed.

Lemma brk_pitem s p :
  string_ok s -> (snd p = 92 -> s <> [93]) -> brk_ok p (pitem s).
Proof.
  intros Hs Hp.
  assert (H2 : forall a b, s = a ++ 92 :: b -> forall t, b <> 93 :: t).
  { intros a b E. destruct Hs as (_ & _ & Hs). destruct (Hs a b E) as [[_ ->]|(_ & _ & Hb)]; [discriminate|exact Hb]. }
  unfold pitem. destruct (Nat.ltb_spec 1 (length s)) as [Hl|Hl].
  - cbn [brk_ok]. split; [discriminate|]. apply brk_ok_app. split.
    + apply brk_esc; [discriminate|exact H2].
    + cbn. split; [discriminate|exact I].
  - apply brk_esc; [|exact H2]. intros H t ->. destruct t; [|cbn in Hl; lia]. now apply Hp.
Qed.

Definition list_ok (l : list pystr) : Prop :=
  Forall string_ok l /\ (forall a b, l <> a ++ [92] :: [93] :: b).

Lemma list_ok_tail s l : list_ok (s :: l) -> list_ok l.
Proof.
  intros [H1 H2]. split; [now inversion H1|]. intros a b ->. now apply (H2 (s :: a) b).
Qed.

Lemma brk_body l : forall p,
  list_ok l -> (snd p = 92 -> forall t, l <> [93] :: t) -> (snd p = 92 -> fst p = 92) ->
  brk_ok p (concat (map pitem l)) /\ (snd (st p (concat (map pitem l))) = 92 -> fst (st p (concat (map pitem l))) = 92).
Proof.
  induction l as [|s l IH]; intros p Hl Hp Hq; [cbn; auto|].
  cbn [map concat]. rewrite brk_ok_app, st_app.
  assert (Hs : string_ok s) by (destruct Hl as [H _]; now inversion H).
  destruct (IH (st p (pitem s))) as [A B].
  - now apply list_ok_tail in Hl.
  - intros E t ->. apply st_pitem_92 in E as [-> _]; [|exact Hs].
    destruct Hl as [_ H]. now apply (H [] t).
  - intros E. now apply st_pitem_92 in E.
  - split; [split; [|exact A]|exact B].
    apply brk_pitem; [exact Hs|]. intros E ->. now apply (Hp E l).
Qed.

Lemma brk_ok_nth s : forall p2 p1 i,
  brk_ok (p2, p1) s -> nth_error s i = Some 93 ->
  nth_error (p2 :: p1 :: s) (S i) = Some 92 /\ nth_error (p2 :: p1 :: s) i <> Some 92.
Proof.
  induction s as [|c s IH]; intros p2 p1 i Hb Hn; [destruct i; discriminate|].
  destruct Hb as [H1 H2]. destruct i as [|i].
  - cbn in Hn. injection Hn as ->. destruct (H1 eq_refl) as [A B]. cbn in *. split; congruence.
  - apply (IH p1 c i H2 Hn).
Qed.

Lemma opt_is_spec o c : opt_is o c = true <-> o = Some c.
Proof.
  destruct o as [x|]; cbn; [|split; discriminate].
  rewrite N.eqb_eq. split; [now intros ->|now injection 1].
Qed.

Lemma st_last2 a p : (2 <= length a)%nat ->
  nth_error a (length a - 1) = Some (snd (st p a)) /\ nth_error a (length a - 2) = Some (fst (st p a)).
Proof.
  revert p. induction a as [|x a IH]; intros p Hl; [cbn in Hl; lia|].
  destruct a as [|y a]; [cbn in Hl; lia|].
  destruct a as [|z a]; [cbn; auto|].
  destruct (IH (snd p, x)) as [A B]; [cbn; lia|].
  change (st p (x :: y :: z :: a)) with (st (snd p, x) (y :: z :: a)).
  change (length (x :: y :: z :: a)) with (S (S (S (length a)))).
  change (length (y :: z :: a)) with (S (S (length a))) in A, B.
  rewrite <- A, <- B. split.
  - replace (S (S (S (length a))) - 1)%nat with (S (S (S (length a)) - 1)) by lia. reflexivity.
  - replace (S (S (S (length a))) - 2)%nat with (S (S (S (length a)) - 2)) by lia. reflexivity.
Qed.

Lemma close_class_body body :
  brk_ok (0, 91) body ->
  (snd (st (0, 91) body) = 92 -> fst (st (0, 91) body) = 92) ->
  let s := 91 :: body ++ [93] in
  exists e0, index_from 93 s 1 = Ok e0 /\ close_class (length s) s e0 = Ok (S (length body)).
Proof.
  intros Hb Hlast s.
  assert (Ht : nth_error s (S (length body)) = Some 93).
  { unfold s. cbn [nth_error]. rewrite nth_error_app2, Nat.sub_diag by lia. reflexivity. }
  destruct (index_from_ok 93 s 1 _ Ht) as (k & Hk & Hkr & Hkn); [lia|].
  exists k. split; [exact Hk|].
  apply close_class_ok; auto; [lia| | |].
  - unfold s. cbn. rewrite app_length. cbn. lia.
  - destruct body as [|x body].
    + reflexivity.
    + pose proof (st_last2 (91 :: x :: body) (0,0)) as [A B]; [cbn; lia|].
      change (st (0,0) (91 :: x :: body)) with (st (0,91) (x :: body)) in A, B.
      unfold brk_test.
      replace (nth_error s (S (length (x :: body)) - 1)) with (Some (snd (st (0, 91) (x :: body)))).
      2:{ rewrite <- A. unfold s. rewrite app_comm_cons. rewrite nth_error_app1 by (cbn; lia). reflexivity. }
      replace (char_before2 s (S (length (x :: body)))) with (Some (fst (st (0, 91) (x :: body)))).
      2:{ rewrite <- B. unfold s, char_before2. cbn [length].
          rewrite app_comm_cons. rewrite nth_error_app1 by (cbn; lia).
          f_equal. lia. }
      cbn [Nat.eqb negb andb].
      destruct (opt_is (Some (snd (st (0, 91) (x :: body)))) 92) eqn:E; [|reflexivity].
      apply opt_is_spec in E. injection E as E. apply Hlast in E. cbn [andb].
      apply negb_false_iff, opt_is_spec. now f_equal.
  - intros j Hj Hn.
    destruct j as [|i]; [lia|].
    assert (Hn' : nth_error body i = Some 93).
    { unfold s in Hn. cbn [nth_error] in Hn. rewrite nth_error_app1 in Hn by lia. exact Hn. }
    destruct (brk_ok_nth _ _ _ _ Hb Hn') as [A B]. cbn [nth_error] in A.
    unfold brk_test. cbn [Nat.eqb negb andb].
    replace (S i - 1)%nat with i by lia.
    replace (nth_error s i) with (Some 92).
    2:{ rewrite <- A. unfold s. rewrite app_comm_cons. rewrite nth_error_app1 by (cbn; lia). reflexivity. }
    cbn [opt_is N.eqb]. change (92 =? 92) with true. cbn [andb].
    destruct i as [|i]; [cbn in A; discriminate|].
    cbn [char_before2]. apply negb_true_iff.
    destruct (opt_is (nth_error s i) 92) eqn:E; [|reflexivity].
    apply opt_is_spec in E. exfalso. apply B.
    cbn [nth_error]. destruct i as [|i]; [cbn in E; discriminate|].
    cbn [nth_error] in E |- *. unfold s in E. cbn [nth_error] in E.
    rewrite nth_error_app1 in E by lia. exact E.
Qed.

(** * Parsing the items *)
Lemma simpleescs_esc s : simpleescs_sub (escape_us_syntax s) = s.
Proof.
  induction s as [|c s IH]; [reflexivity|].
  cbn [escape_us_syntax flat_map]. change (flat_map escapechar s) with (escape_us_syntax s).
  unfold escapechar. destruct (inchars c us_syntax) eqn:E; cbn [app].
  - cbn [simpleescs_sub]. apply syntax_cases in E.
    repeat destruct E as [->|E]; try subst c; cbn; now rewrite IH.
  - apply syntax_false in E.
    assert (H : forall r, simpleescs_sub (c :: r) = c :: simpleescs_sub r).
    { intros r. destruct c as [|p]; [reflexivity|].
      repeat (try reflexivity; destruct p as [p|p|]; try reflexivity; try (exfalso; lia)). }
    now rewrite H, IH.
Qed.

Fixpoint brc_ok (p1 : N) (s : pystr) : Prop :=
  match s with [] => True | c :: s' => (c = 125 -> p1 = 92) /\ brc_ok c s' end.
Lemma brc_esc s p : brc_ok p (escape_us_syntax s).
Proof.
  revert p; induction s as [|c s IH]; intros p; [exact I|].
  cbn [escape_us_syntax flat_map]. unfold escapechar at 1.
  destruct (inchars c us_syntax) eqn:E; cbn [app brc_ok].
  - repeat split; auto. discriminate.
  - split; [intros ->; discriminate|apply IH].
Qed.
Lemma brc_ok_nth s : forall p1 i, brc_ok p1 s -> nth_error s i = Some 125 -> nth_error (p1 :: s) i = Some 92.
Proof.
  induction s as [|c s IH]; intros p1 i Hb Hn; [destruct i; discriminate|].
  destruct Hb as [H1 H2]. destruct i as [|i].
  - cbn in *. injection Hn as ->. now rewrite H1.
  - apply (IH c i H2 Hn).
Qed.

Lemma nth_error_skipn {A} (s : list A) n i : nth_error s (n + i) = nth_error (skipn n s) i.
Proof.
  revert s; induction n as [|n IH]; intros s; [reflexivity|].
  destruct s as [|x s]; [destruct i; reflexivity|]. apply IH.
Qed.

Lemma last_nth_error {A} (a : list A) d : a <> [] -> nth_error a (length a - 1) = Some (last a d).
Proof.
  induction a as [|x a IH]; intros H; [congruence|].
  destruct a as [|y a]; [reflexivity|].
  change (length (x :: y :: a)) with (S (S (length a))).
  replace (S (S (length a)) - 1)%nat with (S (S (length a) - 1)) by lia.
  apply IH. discriminate.
Qed.
Lemma last_esc s : s <> [] -> last (escape_us_syntax s) 0 = last s 0.
Proof.
  intros H. rewrite <- (st_esc_last s (0,0) H).
  assert (G : forall a p, a <> [] -> snd (st p a) = last a 0).
  { induction a as [|x a IH]; intros p Ha; [congruence|].
    destruct a as [|y a]; [reflexivity|].
    change (last (x :: y :: a) 0) with (last (y :: a) 0).
    rewrite <- (IH (snd p, x)) by discriminate. reflexivity. }
  symmetry. apply G. destruct s as [|c s]; [congruence|].
  cbn. unfold escapechar. destruct (inchars c us_syntax); discriminate.
Qed.

Lemma string_ok_last s : string_ok s -> (1 < length s)%nat -> last s 0 <> 92.
Proof.
  intros (Hne & _ & H) Hl E.
  destruct (exists_last Hne) as (a & x & ->). rewrite last_last in E. subst x.
  destruct (H a [] eq_refl) as [[-> _]|(F & _)]; [cbn in Hl; lia|congruence].
Qed.

Section Items.
  Variable ud : N -> bool.

  Lemma intable_syntax c : inchars c us_syntax = true -> intable ud c = false.
  Proof. intros H. apply syntax_cases in H. repeat destruct H as [->|H]; subst; reflexivity. Qed.
  Lemma simpleesc_syntax c : inchars c us_syntax = true -> simpleesc c = c.
  Proof. intros H. apply syntax_cases in H. repeat destruct H as [->|H]; subst; reflexivity. Qed.

  Lemma parse_pitem f s ind last e x r :
    string_ok x -> skipn ind s = pitem x ++ r -> ind <> e ->
    parseitem ud (S f) s ind last e = Ok (ind + length (pitem x), last, Some (us_single x))%nat.
  Proof.
    intros Hx Hs Hne.
    assert (Hnth : forall i, nth_error s (ind + i) = nth_error (pitem x ++ r) i).
    { intros i. now rewrite nth_error_skipn, Hs. }
    cbn [parseitem]. apply Nat.eqb_neq in Hne as ->.
    pose proof (Hnth O) as H0. rewrite Nat.add_0_r in H0. rewrite H0.
    unfold pitem in *. destruct (Nat.ltb_spec 1 (length x)) as [Hl|Hl].
    - cbn [app nth_error N.eqb].
      change (123 =? 91) with false. change (inchars 123 (lit "|&-")) with false.
      change (123 =? 123) with true. cbn iota.
      set (E := escape_us_syntax x) in *.
      assert (HE : E <> []).
      { unfold E. destruct x as [|c x']; [cbn in Hl; lia|]. cbn. unfold escapechar.
        destruct (inchars c us_syntax); discriminate. }
      assert (HEl : (0 < length E)%nat) by (clearbody E; destruct E; [congruence|cbn; lia]).
      assert (Hpos : forall i, (i <= length E)%nat -> nth_error s (ind + 1 + i) = nth_error (E ++ [125]) i).
      { intros i Hi. rewrite <- Nat.add_assoc, Hnth. cbn [Nat.add app nth_error].
        rewrite nth_error_app1 by (rewrite app_length; cbn; lia). reflexivity. }
      set (t := (ind + 1 + length E)%nat).
      assert (Ht : nth_error s t = Some 125).
      { unfold t. rewrite Hpos by lia. rewrite nth_error_app2, Nat.sub_diag by lia. reflexivity. }
      assert (Hlen : (t < length s)%nat).
      { apply nth_error_Some. rewrite Ht. discriminate. }
      destruct (index_from_ok 125 s (ind + 1) t Ht) as (k & -> & Hk & Hkn); [unfold t; lia|].
      cbn [bind]. rewrite (close_brace_ok s t); auto; try lia.
      + cbn [bind].
        replace (t + 1)%nat with (ind + length (123%N :: E ++ [125%N]))%nat.
        2:{ unfold t. cbn [length]. rewrite app_length. cbn [length]. lia. }
        assert (Esl : simpleescs_sub (slice s (ind + 1) t) = x); [|now rewrite Esl].
        { unfold slice.
          replace (skipn (ind + 1) s) with (E ++ 125 :: r).
          2:{ rewrite Nat.add_comm, <- skipn_skipn, Hs. cbn [app skipn]. now rewrite <- app_assoc. }
          replace (t - (ind + 1))%nat with (length E + 0)%nat by (unfold t; lia).
          rewrite firstn_app_2. cbn [firstn]. rewrite app_nil_r. apply simpleescs_esc. }
      + unfold brc_test. replace (t - 1)%nat with (ind + 1 + (length E - 1))%nat.
        2:{ unfold t. lia. }
        rewrite Hpos by lia.
        rewrite nth_error_app1 by lia.
        rewrite (last_nth_error E 0 HE). unfold E. rewrite last_esc by (apply Hx).
        destruct (opt_is _ 92) eqn:Eo; [|now rewrite andb_false_r].
        apply opt_is_spec in Eo. injection Eo as Eo.
        now apply string_ok_last in Eo.
      + intros j Hj Hn. unfold brc_test.
        set (i := (j - (ind + 1))%nat).
        assert (Ej : j = (ind + 1 + i)%nat) by (unfold i; lia).
        assert (Hi : (i < length E)%nat) by (unfold t in Hj; lia).
        rewrite Ej in Hn. rewrite Hpos in Hn by lia. rewrite nth_error_app1 in Hn by lia.
        apply brc_ok_nth with (p1 := 123) in Hn; [|apply brc_esc].
        replace (j =? 0)%nat with false by (symmetry; apply Nat.eqb_neq; lia).
        cbn [negb andb]. apply opt_is_spec.
        replace (j - 1)%nat with (ind + i)%nat by lia. rewrite Hnth.
        destruct i as [|i]; [exact Hn|]. cbn [app nth_error] in Hn |- *.
        rewrite <- app_assoc. rewrite nth_error_app1 by lia. exact Hn.
    - destruct Hx as (Hxne & _).
      destruct x as [|c [|? ?]]; [congruence| |cbn in Hl; lia].
      revert Hnth. cbn [escape_us_syntax flat_map]. rewrite app_nil_r. unfold escapechar.
      destruct (inchars c us_syntax) eqn:Ec; intros Hnth.
      + cbn [app nth_error]. change (92 =? 91) with false. change (inchars 92 (lit "|&-")) with false.
        change (92 =? 123) with false. change (92 =? 92) with true. cbn iota.
        rewrite (Hnth 1%nat). cbn [app nth_error].
        rewrite intable_syntax, simpleesc_syntax by exact Ec. reflexivity.
      + cbn [app nth_error].
        apply syntax_false in Ec.
        replace (c =? 91) with false by (symmetry; apply N.eqb_neq; tauto).
        replace (inchars c (lit "|&-")) with false.
        2:{ symmetry. apply inchars_false. cbn. intuition congruence. }
        replace (c =? 123) with false by (symmetry; apply N.eqb_neq; tauto).
        replace (c =? 92) with false by (symmetry; apply N.eqb_neq; tauto).
        reflexivity.
  Qed.

  Lemma sunion_single acc x : sunion acc [x] = sadd acc x.
  Proof. reflexivity. Qed.

  Definition addopt acc (o : option uset) := match o with Some u => sunion acc (us_items u) | None => acc end.

  Lemma class_loop_items f s e l : forall fuel ind item acc r,
    Forall string_ok l ->
    skipn ind s = concat (map pitem l) ++ r ->
    e = (ind + length (concat (map pitem l)))%nat ->
    (length l <= fuel)%nat ->
    exists item' acc',
      class_loop (parseitem ud (S f) s) fuel ind e item acc = Ok (e, item', acc') /\
      addopt acc' item' = fold_left sadd l (addopt acc item).
  Proof.
    induction l as [|x l IH]; intros fuel ind item acc r Hl Hs He Hf.
    - cbn in He. rewrite Nat.add_0_r in He. subst e.
      exists item, acc. destruct fuel; cbn [class_loop]; rewrite Nat.ltb_irrefl; auto.
    - pose proof (Forall_inv Hl) as Hx. pose proof (Forall_inv_tail Hl) as Hl'.
      cbn [map concat] in Hs, He. rewrite <- app_assoc in Hs. rewrite app_length in He.
      assert (Hpos : (0 < length (pitem x))%nat).
      { destruct Hx as (Hxne & _). unfold pitem. destruct x as [|c x]; [congruence|].
        destruct (Nat.ltb 1 _); cbn; [lia|]. unfold escapechar.
        destruct (inchars c us_syntax); cbn; lia. }
      destruct fuel as [|fuel]; [cbn in Hf; lia|].
      cbn [class_loop]. rewrite (proj2 (Nat.ltb_lt _ _)) by lia.
      rewrite (parse_pitem f s ind item e x _ Hx Hs) by lia. cbn [bind].
      destruct (IH fuel (ind + length (pitem x))%nat (Some (us_single x)) (addopt acc item) r) as (i' & a' & H1 & H2); auto.
      + rewrite Nat.add_comm, <- skipn_skipn, Hs. rewrite skipn_app, skipn_all, Nat.sub_diag. reflexivity.
      + lia.
      + cbn in Hf. lia.
      + exists i', a'. split; [|exact H2]. exact H1.
  Qed.

  Lemma length_concat_pitem l : Forall string_ok l -> (length l <= length (concat (map pitem l)))%nat.
  Proof.
    induction 1 as [|x l Hx Hl IH]; [cbn; lia|]. cbn [map concat length]. rewrite app_length.
    destruct Hx as (Hxne & _).
    assert (0 < length (pitem x))%nat.
    { unfold pitem. destruct x as [|c x]; [congruence|].
      destruct (Nat.ltb 1 _); cbn; [lia|]. unfold escapechar.
      destruct (inchars c us_syntax); cbn; lia. }
    lia.
  Qed.

  Lemma us2list_body l :
    list_ok l ->
    let s := 91 :: concat (map pitem l) ++ [93] in
    (do r <- parse_loop ud (length s) s 0 []; match r with u :: _ => Ok (us_items u) | [] => Ok [] end)
    = Ok (fold_left sadd l []).
  Proof.
    intros Hl s.
    destruct (brk_body l (0, 91) Hl) as [Hb Hlast]; [discriminate|discriminate|].
    destruct (close_class_body _ Hb Hlast) as (e0 & He0 & He).
    fold s in He0, He.
    assert (Hlen : length s = (2 + length (concat (map pitem l)))%nat).
    { unfold s. cbn. rewrite app_length. cbn. lia. }
    assert (Hc1 : exists c1, nth_error s 1 = Some c1 /\ c1 =? 94 = false).
    { unfold s. cbn [nth_error]. destruct l as [|x l]; [exists 93; auto|].
      destruct Hl as [Hl _]. inversion Hl as [|? ? Hx _]; subst. destruct Hx as (Hxne & _).
      cbn [map concat]. destruct x as [|c x]; [congruence|]. unfold pitem.
      destruct (Nat.ltb 1 _); [cbn; exists 123; auto|].
      cbn. unfold escapechar. destruct (inchars c us_syntax) eqn:Ec; cbn; eexists; split; eauto.
      apply syntax_false in Ec. apply N.eqb_neq. tauto. }
    destruct Hc1 as (c1 & Hc1 & Hc1').
    destruct (class_loop_items (length (concat (map pitem l))) s (S (length (concat (map pitem l)))) l
                (length s) 1 None [] [93]) as (item' & acc' & Hloop & Hacc).
    - apply Hl.
    - reflexivity.
    - reflexivity.
    - pose proof (length_concat_pitem l (proj1 Hl)). lia.
    - assert (Hp : parseitem ud (length s) s 0 None (length s) =
        Ok (length s, None, Some (USet (fold_left sadd l []) false true false))).
      { revert Hloop He. remember (S (length (concat (map pitem l)))) as n eqn:En. intros Hloop He.
        assert (Hlen' : length s = S n) by lia.
        replace (parseitem ud (length s) s) with (parseitem ud (S n) s) by now rewrite Hlen'.
        cbn [parseitem].
        replace (0 =? length s)%nat with false by now rewrite Hlen'.
        change (nth_error s 0) with (Some 91). change (91 =? 91) with true. cbn iota.
        change (0 + 1)%nat with 1%nat. rewrite Hc1, Hc1'. cbn iota zeta. rewrite He0. cbn [bind]. rewrite He. cbn [bind].
        rewrite Hloop. cbn [bind]. fold (addopt acc' item'). rewrite Hacc. cbn [addopt].
        rewrite Hlen'. replace (n + 1)%nat with (S n) by lia. reflexivity. }
      assert (Hend : forall k a, parse_loop ud k s (length s) a = Ok a).
      { intros [|k] a; cbn [parse_loop]; rewrite Nat.ltb_irrefl; reflexivity. }
      assert (Hone : exists k, length s = S k) by (exists (length s - 1)%nat; lia).
      destruct Hone as (k & Hk).
      replace (parse_loop ud (length s) s) with (parse_loop ud (S k) s) by now rewrite Hk.
      cbn [parse_loop]. rewrite (proj2 (Nat.ltb_lt _ _)) by lia. rewrite Hp. cbn [bind].
      rewrite Hend. cbn [bind app].
      unfold truthy. cbn [us_items]. destruct (fold_left sadd l []) as [|y ys] eqn:Ef; reflexivity.
  Qed.
End Items.

Lemma smem_spec x l : smem x l = true <-> In x l.
Proof.
  unfold smem. rewrite existsb_exists. split.
  - intros (y & Hy & E). apply streq_true in E. now subst.
  - intros H. exists x. split; [exact H|apply streq_refl].
Qed.
Lemma in_sadd x l y : In x (sadd l y) <-> In x l \/ x = y.
Proof.
  unfold sadd. destruct (smem y l) eqn:E.
  - apply smem_spec in E. split; [auto|intros [H| ->]; auto].
  - rewrite in_app_iff. cbn. intuition congruence.
Qed.
Lemma sadd_NoDup l y : NoDup l -> NoDup (sadd l y).
Proof.
  intros H. unfold sadd. destruct (smem y l) eqn:E; [exact H|].
  apply Permutation_NoDup with (l := y :: l); [apply Permutation_cons_append|].
  constructor; [|exact H]. intros Hin. apply smem_spec in Hin. congruence.
Qed.
Lemma in_fold_sadd l : forall a x, In x (fold_left sadd l a) <-> In x a \/ In x l.
Proof.
  induction l as [|y l IH]; intros a x; cbn; [tauto|].
  rewrite IH, in_sadd. intuition congruence.
Qed.
Lemma fold_sadd_NoDup l : forall a, NoDup a -> NoDup (fold_left sadd l a).
Proof. induction l as [|y l IH]; intros a H; cbn; [exact H|]. now apply IH, sadd_NoDup. Qed.

Lemma us_roundtrip ud need l :
  (forall c iso, need c iso = true -> inchars c us_syntax = false) ->
  list_ok l ->
  us2list ud (list2us need l) = Ok (fold_left sadd l []).
Proof.
  intros Hn Hl. unfold us2list, us_parse.
  rewrite hexescre_list2us by (auto; apply Hl). cbn [bind].
  rewrite hexgre_plain. cbn [bind].
  fold nosp.
  replace (filter nosp (91 :: join [32] (map pitem l) ++ [93])) with (91 :: concat (map pitem l) ++ [93]).
  - apply us2list_body. exact Hl.
  - cbn [filter nosp N.eqb negb]. change (nosp 91) with true. cbn iota.
    rewrite filter_app, filter_join by apply Hl. reflexivity.
Qed.

(** Property C05 for escape with allchars=True: what every character becomes. *)
From Verif Require Import Py PyFacts M_UnicodeSets M_Collation.
Local Open Scope list_scope.
Local Open Scope N_scope.

(** * Specification *)
(** a character that ends the run of marks the text starts with; letters of ASCII do not *)
Definition base_char (is_mark : N -> bool) (c : N) : Prop := ~ (32 < c < 127) /\ is_mark c = false.
(** the ASCII punctuation characters but for the apostrophe *)
Definition punctuation (c : N) : Prop := 33 <= c <= 47 /\ c <> 39 \/ 58 <= c <= 64 \/ 91 <= c <= 96 \/ 123 <= c <= 126.
(** what the character [c] becomes after [p] *)
Definition becomes (is_mark : N -> bool) (p : pystr) (c : N) (out : pystr) : Prop :=
  (punctuation c -> out = [92; c]) /\
  (c = 39 -> out = [39; 39]) /\
  (~ (32 < c < 127) -> is_mark c = true -> (forall b, In b p -> ~ base_char is_mark b) ->
     exists h, forallb is_hex h = true /\ hexnum h = c /\
       (c <= 0xFFFF -> out = [92; 117] ++ h /\ length h = 4%nat) /\ (0xFFFF < c -> out = [92; 85] ++ h /\ length h = 8%nat)) /\
  (~ punctuation c -> c <> 39 -> (32 < c < 127 \/ is_mark c = false \/ exists b, In b p /\ base_char is_mark b) -> out = [c]).

(** * Proofs *)
Lemma punctuation_spec c : inchars c escs = true <-> punctuation c.
Proof.
  unfold punctuation. split.
  - intro H. unfold inchars in H. apply existsb_exists in H as (x & Hx & E). apply N.eqb_eq in E. subst x.
    vm_compute in Hx. repeat (destruct Hx as [<-|Hx]; [lia|]). destruct Hx.
  - intro H. unfold inchars. apply existsb_exists. exists c. split; [|apply N.eqb_refl].
    assert (L : c < 127) by lia. revert H. clear -L.
    assert (forall n, (n < 127)%nat ->
      (33 <= N.of_nat n <= 47 /\ N.of_nat n <> 39 \/ 58 <= N.of_nat n <= 64 \/ 91 <= N.of_nat n <= 96 \/ 123 <= N.of_nat n <= 126) ->
      In (N.of_nat n) escs) as Q.
    { intros n Hn. do 127 (destruct n as [|n]; [intro H; try (exfalso; lia); vm_compute; tauto|]). lia. }
    intro H. rewrite <- (N2Nat.id c) in *. apply Q; [lia|exact H].
Qed.
Lemma base_dec im c : base_char im c \/ ~ base_char im c.
Proof. unfold base_char. destruct (im c); [right; intros [_ ?]; discriminate|]. assert (32 < c < 127 \/ ~ 32 < c < 127) by lia. tauto. Qed.

Lemma escape_pieces im : forall s p lb,
  (lb = true <-> exists b, In b p /\ base_char im b) -> (forall c, In c s -> c < 0x110000) ->
  exists outs, coll_escape_aux im true lb s = concat outs /\ length outs = length s /\
    forall q c r out, s = q ++ c :: r -> nth_error outs (length q) = Some out -> becomes im (p ++ q) c out.
Proof.
  induction s as [|k s IH]; intros p lb Hlb Hs.
  { exists []. split; [reflexivity|]. split; [reflexivity|]. intros q c r out E. destruct q; discriminate. }
  assert (Hk := Hs k (or_introl eq_refl)).
  (* one step *)
  assert (Step : forall out lb' rest, coll_escape_aux im true lb (k :: s) = out ++ rest -> rest = coll_escape_aux im true lb' s ->
            becomes im p k out -> (lb' = true <-> exists b, In b (p ++ [k]) /\ base_char im b) ->
            exists outs, coll_escape_aux im true lb (k :: s) = concat outs /\ length outs = length (k :: s) /\
              forall q c r o, k :: s = q ++ c :: r -> nth_error outs (length q) = Some o -> becomes im (p ++ q) c o).
  { intros out lb' rest E -> Hb Hl. destruct (IH (p ++ [k]) lb' Hl (fun c H => Hs c (or_intror H))) as (outs & E1 & L & Q).
    exists (out :: outs). split; [cbn [concat]; now rewrite <- E1|]. split; [cbn; now rewrite L|].
    intros q c r o Eq No. destruct q as [|x q]; cbn in Eq, No.
    - injection Eq as <- _. injection No as <-. now rewrite app_nil_r.
    - injection Eq as <- Eq. specialize (Q q c r o Eq No). now rewrite <- app_assoc in Q. }
  assert (Keep : ~ base_char im k -> (lb = true <-> exists b, In b (p ++ [k]) /\ base_char im b)).
  { intro N. rewrite Hlb. split; intros (b & Hb & Hc); exists b; (split; [|exact Hc]); [apply in_or_app; now left|].
    apply in_app_or in Hb as [Hb|[<-|[]]]; [exact Hb|contradiction]. }
  pose proof (punctuation_spec k) as Hp. unfold punctuation in Hp.
  destruct (inchars k escs) eqn:E1.
  { assert (P : punctuation k) by (now apply Hp). unfold punctuation in P.
    apply (Step [92; k] lb (coll_escape_aux im true lb s)).
    - cbn [coll_escape_aux]. now rewrite E1.
    - reflexivity.
    - unfold becomes, punctuation. repeat split; try reflexivity; try (intros; exfalso; lia).
    - apply Keep. intros [N _]. lia. }
  assert (NP : ~ punctuation k) by (rewrite <- punctuation_spec, E1; discriminate). clear Hp.
  destruct (N.eqb_spec k 39) as [E2|E2].
  { apply (Step [39; 39] lb (coll_escape_aux im true lb s)).
    - cbn [coll_escape_aux]. rewrite E1. subst k. reflexivity.
    - reflexivity.
    - repeat split; try reflexivity; try (intros; exfalso; tauto); intros; exfalso; lia.
    - apply Keep. intros [N _]. lia. }
  apply N.eqb_neq in E2 as E2'.
  destruct (N.ltb 32 k && N.ltb k 127)%bool eqn:E3.
  { assert (32 < k < 127) by lia. apply (Step [k] lb (coll_escape_aux im true lb s)).
    - cbn [coll_escape_aux]. now rewrite E1, E2', E3.
    - reflexivity.
    - repeat split; try reflexivity; try (intros; exfalso; tauto).
    - apply Keep. intros [N _]. lia. }
  assert (NA : ~ 32 < k < 127) by lia.
  destruct (lb || negb (im k))%bool eqn:E4.
  { apply (Step [k] true (coll_escape_aux im true true s)).
    - cbn [coll_escape_aux]. now rewrite E1, E2', E3, E4.
    - reflexivity.
    - repeat split; try reflexivity; try (intros; exfalso; tauto). intros _ Hm Hb. exfalso.
      rewrite Hm, orb_false_r in E4. apply Hlb in E4 as (b & Hb1 & Hb2). exact (Hb b Hb1 Hb2).
    - split; [intros _|reflexivity]. destruct lb.
      + destruct (proj1 Hlb eq_refl) as (b & Hb & Hc). exists b. split; [apply in_or_app; now left|exact Hc].
      + exists k. split; [apply in_or_app; right; now left|]. split; [exact NA|]. cbn in E4. now destruct (im k). }
  apply orb_false_iff in E4 as [-> E4]. apply negb_false_iff in E4.
  apply (Step (hexesc_of k) false (coll_escape_aux im true false s)).
  - cbn [coll_escape_aux]. rewrite E1, E2', E3, E4. reflexivity.
  - reflexivity.
  - split; [tauto|]. split; [tauto|]. split.
    + intros _ _ _. unfold hexesc_of. destruct (N.ltb_spec 65535 k) as [L|L].
      * exists (hexpad 8 k). rewrite hexnum_hexpad by (change (16 ^ N.of_nat 8) with 4294967296; lia).
        rewrite hexpad_hex. split; [reflexivity|]. split; [reflexivity|]. split; intro; [exfalso; lia|]. split; [reflexivity|apply hexpad_length].
      * exists (hexpad 4 k). rewrite hexnum_hexpad by (change (16 ^ N.of_nat 4) with 65536; lia).
        rewrite hexpad_hex. split; [reflexivity|]. split; [reflexivity|]. split; intro; [|exfalso; lia]. split; [reflexivity|apply hexpad_length].
    + intros _ _ [?|[?|Hb]]; [tauto|congruence|]. apply Hlb in Hb. discriminate.
  - apply Keep. intros [_ N]. congruence.
Qed.

(** * Theorem *)
(** With allchars=True every character becomes what is said above, one after the other: the marks the text starts with
    become hex escapes, and no base of ASCII ends them. *)
Theorem C05_allchars_escapes : forall is_mark s, (forall c, In c s -> c < 0x110000) ->
  exists outs, coll_escape is_mark true s = concat outs /\ length outs = length s /\
    forall p c r out, s = p ++ c :: r -> nth_error outs (length p) = Some out -> becomes is_mark p c out.
Proof.
  intros im s Hs. destruct (escape_pieces im s [] false) as (outs & E & L & Q); [|exact Hs|].
  - split; [discriminate|]. intros (b & [] & _).
  - exists outs. auto.
Qed.
(** a mark after an ASCII letter is escaped, one after another letter is not *)
Example C05_allchars_case :
  coll_escape (fun c => N.eqb c 0x301) true [97; 0x301; 0xE9; 0x301] = lit "a\u0301" ++ [0xE9; 0x301].
Proof. reflexivity. Qed.

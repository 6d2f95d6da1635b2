(** C90: the functions that paths in templates may call. *)
From Coq Require Import String ZArith Lia.
From Verif Require Import Py PyFacts M_TmplFun.
Local Open Scope list_scope.

(** * Specification *)
(** the words of a text: its longest runs without white space, in order *)
Inductive words_are (ws : N -> bool) : pystr -> list pystr -> Prop :=
| wa_none s : (forall c, In c s -> ws c = true) -> words_are ws s []
| wa_word gap w rest l : (forall c, In c gap -> ws c = true) -> w <> [] -> (forall c, In c w -> ws c = false) ->
    (rest = [] \/ exists c r, rest = c :: r /\ ws c = true) -> words_are ws rest l -> words_are ws (gap ++ w ++ rest) (w :: l).
(** the text of an argument: of a string itself, of nodes that of the first one *)
Inductive text_is : xarg -> pystr -> Prop :=
| ti_str s : text_is (XStr s) s
| ti_node s l : text_is (XNodes (Some s :: l)) s
| ti_empty : text_is (XNodes []) [].

(** * Proof *)
Section Proof.
  Variable ws : N -> bool.
  Notation split_words := (split_words ws).
  Lemma split_acc w : forall acc s, (forall c, In c w -> ws c = false) -> split_words acc (w ++ s) = split_words (acc ++ w) s.
  Proof.
    induction w as [|c w IH]; intros acc s H; [now rewrite app_nil_r|]. cbn [app M_TmplFun.split_words].
    rewrite (H c (or_introl eq_refl)), IH by (intros x Hx; apply H; now right). now rewrite <- app_assoc.
  Qed.
  Lemma split_gap g : forall s, (forall c, In c g -> ws c = true) -> split_words [] (g ++ s) = split_words [] s.
  Proof.
    induction g as [|c g IH]; intros s H; [reflexivity|]. cbn [app M_TmplFun.split_words].
    rewrite (H c (or_introl eq_refl)). apply IH. intros x Hx. apply H. now right.
  Qed.
  Lemma split_words_are s l : words_are ws s l -> split_words [] s = l.
  Proof.
    induction 1 as [s H|gap w rest l Hg Nw Hw Hr _ IH].
    - rewrite <- (app_nil_r s), split_gap by assumption. reflexivity.
    - rewrite split_gap, split_acc by assumption. cbn [app]. destruct Hr as [->|(c & r & -> & Hc)].
      + cbn [M_TmplFun.split_words] in *. subst l. destruct w; [congruence|reflexivity].
      + cbn [M_TmplFun.split_words] in *. rewrite Hc in *. destruct w; [congruence|]. now rewrite IH.
  Qed.
  Lemma take_while (p : N -> bool) s : exists a b, s = a ++ b /\ (forall c, In c a -> p c = true) /\ (b = [] \/ exists c r, b = c :: r /\ p c = false).
  Proof.
    induction s as [|c s (a & b & -> & Ha & Hb)]; [exists [], []; split; [reflexivity|]; split; [intros ? []|now left]|].
    destruct (p c) eqn:Pc.
    - exists (c :: a), b. split; [reflexivity|]. split; [|assumption]. intros x [<-|Hx]; auto.
    - exists [], (c :: a ++ b). split; [reflexivity|]. split; [intros ? []|]. right. now exists c, (a ++ b).
  Qed.
  Lemma words_exist n : forall s, length s <= n -> exists l, words_are ws s l.
  Proof.
    induction n as [|n IH]; intros s Hn.
    - destruct s; [|cbn in Hn; lia]. exists []. constructor. intros ? [].
    - destruct (take_while ws s) as (g & b & -> & Hg & Hb). destruct Hb as [->|(c & r & -> & Hc)].
      + exists []. constructor. intros c H. apply Hg. now rewrite app_nil_r in H.
      + destruct (take_while (fun x => negb (ws x)) (c :: r)) as (w & rest & E & Hw & Hr). rewrite E in *.
        assert (w <> []) as Nw.
        { intros ->. cbn in E. subst rest. destruct Hr as [Hr|(x & y & Hx & Hy)]; [discriminate|]. injection Hx as <- _. now rewrite Hc in Hy. }
        destruct (IH rest) as (l & Hl). { rewrite !app_length in Hn. destruct w; [congruence|]. cbn [length] in Hn. lia. }
        exists (w :: l). constructor; try assumption.
        * intros x Hx. now apply negb_true_iff, Hw.
        * destruct Hr as [->|(x & y & -> & Hx)]; [now left|right]. exists x, y. split; [reflexivity|]. now apply negb_false_iff in Hx.
  Qed.
  Lemma text_asstr a s : text_is a s -> asstr a = Ok (Some s).
  Proof. now intros []. Qed.
  Lemma at_spec {X} (l : list X) i : py_at l i =
    match (if (0 <=? i)%Z then nth_error l (Z.to_nat i)
           else if (- Z.of_nat (length l) <=? i)%Z then nth_error l (length l - Z.to_nat (- i)) else None) with
    | Some x => Ok x | None => Raise IndexError end.
  Proof.
    unfold py_at. cbv zeta. destruct (Z.ltb_spec i 0).
    - destruct (Z.leb_spec 0 i); [lia|]. destruct (Z.ltb_spec (i + Z.of_nat (length l)) 0).
      + destruct (Z.leb_spec (- Z.of_nat (length l)) i); [lia|]. reflexivity.
      + destruct (Z.leb_spec (- Z.of_nat (length l)) i); [|lia]. replace (Z.to_nat (i + Z.of_nat (length l))) with (length l - Z.to_nat (- i)) by lia. reflexivity.
    - destruct (Z.leb_spec 0 i); [|lia]. destruct (Z.ltb_spec i 0); [lia|reflexivity].
  Qed.

  (** ** C90: split gives the words of the text; every text has them, in one way only *)
  Theorem C90_split : forall a s, text_is a s -> exists l, fn_split ws a = Ok (RWords l) /\ words_are ws s l /\ forall l', words_are ws s l' -> l' = l.
  Proof.
    intros a s Ht. destruct (words_exist (length s) s) as (l & Hl); [lia|]. exists l.
    assert (fn_split ws a = Ok (RWords l)) as E by (unfold fn_split; rewrite (text_asstr a s Ht); cbn; now rewrite (split_words_are s l Hl)).
    split; [exact E|]. split; [exact Hl|]. intros l' Hl'. apply split_words_are in Hl. apply split_words_are in Hl'. congruence.
  Qed.

  (** ** C90: findsep gives the word with the number, from 0, or from the end if it is negative,
      and fails for other numbers; of an empty text it gives the empty text for any index *)
  Theorem C90_findsep : forall num a s l i, text_is a s -> s <> [] -> words_are ws s l -> forall b,
    fn_findsep ws num a (XNum (Some i) b) =
      match (if (0 <=? i)%Z then nth_error l (Z.to_nat i)
             else if (- Z.of_nat (length l) <=? i)%Z then nth_error l (length l - Z.to_nat (- i)) else None) with
      | Some w => Ok (RText w)
      | None => Raise IndexError
      end.
  Proof.
    intros num a s l i Ht Ns Hl b. unfold fn_findsep. rewrite (text_asstr a s Ht). cbn [bind]. destruct s as [|c s]; [congruence|].
    unfold py_split. cbn [bind py_int]. rewrite (split_words_are _ _ Hl), at_spec.
    now destruct (if (0 <=? i)%Z then nth_error l (Z.to_nat i) else if (- Z.of_nat (length l) <=? i)%Z then nth_error l (length l - Z.to_nat (- i)) else None).
  Qed.
  Theorem C90_empty : forall num a i, text_is a [] ->
    fn_findsep ws num a i = Ok (RText []) /\ fn_firstword ws a = Ok (RText []) /\ fn_split ws a = Ok (RWords []).
  Proof. intros num a i H. unfold fn_findsep, fn_firstword, fn_split. now rewrite (text_asstr a [] H). Qed.

  (** ** C90: firstword gives the first word *)
  Theorem C90_firstword : forall a s w l, text_is a s -> words_are ws s (w :: l) -> fn_firstword ws a = Ok (RText w).
  Proof.
    intros a s w l Ht Hl. unfold fn_firstword. rewrite (text_asstr a s Ht). cbn [bind].
    assert (s <> []) as Ns by (intros ->; inversion Hl as [|g w' r ? ? Nw _ _ _ E]; subst; destruct g, w; discriminate || congruence).
    destruct s as [|c s]; [congruence|]. unfold py_split. cbn [bind]. now rewrite (split_words_are _ _ Hl).
  Qed.
  (** a text of white space only is an error, though the empty text is not *)
  Theorem C90_blank_refuted : forall a s, text_is a s -> s <> [] -> (forall c, In c s -> ws c = true) ->
    fn_firstword ws a = Raise IndexError.
  Proof.
    intros a s Ht Ns Hw. unfold fn_firstword. rewrite (text_asstr a s Ht). cbn [bind]. destruct s as [|c s]; [congruence|].
    unfold py_split. cbn [bind]. now rewrite (split_words_are _ [] (wa_none ws _ Hw)).
  Qed.

  (** ** C90: default gives the first text that is not empty, whatever follows *)
  Theorem C90_default : forall pre a s post, (forall x, In x pre -> text_is x []) -> text_is a s -> s <> [] ->
    fn_default (pre ++ a :: post) = Ok (RText s).
  Proof.
    intros pre a s post. induction pre as [|x pre IH]; intros Hp Ha Ns; cbn [app fn_default].
    - rewrite (text_asstr a s Ha). cbn [bind]. destruct s; [congruence|reflexivity].
    - rewrite (text_asstr x [] (Hp x (or_introl eq_refl))). cbn [bind]. apply IH; [|assumption|assumption]. intros y Hy. apply Hp. now right.
  Qed.
  Theorem C90_default_none : forall vals, (forall x, In x vals -> text_is x []) -> fn_default vals = Ok (RText []).
  Proof.
    induction vals as [|x vals IH]; intros H; [reflexivity|]. cbn [fn_default]. rewrite (text_asstr x [] (H x (or_introl eq_refl))). cbn [bind].
    apply IH. intros y Hy. apply H. now right.
  Qed.
  (** but an element without text is not skipped: the result is no text, whatever the defaults;
      and no word can be asked of it *)
  Theorem C90_no_text_refuted : forall pre l post num i, (forall x, In x pre -> text_is x []) ->
    fn_default (pre ++ XNodes (None :: l) :: post) = Ok RNone /\
    fn_firstword ws (XNodes (None :: l)) = Raise AttributeError /\
    fn_split ws (XNodes (None :: l)) = Raise AttributeError /\
    fn_findsep ws num (XNodes (None :: l)) i = Raise AttributeError.
  Proof.
    intros pre l post num i H. split; [|repeat split; reflexivity].
    induction pre as [|x pre IH]; [reflexivity|]. cbn [app fn_default]. rewrite (text_asstr x [] (H x (or_introl eq_refl))). cbn [bind].
    apply IH. intros y Hy. apply H. now right.
  Qed.

  (** ** C90: choose: a set of nodes is true if it is not empty, a text if it is not empty
      (also the text false) *)
  Theorem C90_choose : forall a b,
    (forall t l, fn_choose (XNodes (t :: l)) a b = Ok (RArg a)) /\ fn_choose (XNodes []) a b = Ok (RArg b) /\
    (forall s, s <> [] -> fn_choose (XStr s) a b = Ok (RArg a)) /\ fn_choose (XStr []) a b = Ok (RArg b) /\
    fn_choose (XBool true) a b = Ok (RArg a) /\ fn_choose (XBool false) a b = Ok (RArg b).
  Proof. intros a b. repeat split. intros s H. destruct s; [congruence|reflexivity]. Qed.
End Proof.

(** * The hypotheses are met *)
Definition ex_tws (c : N) : bool := N.eqb c 32.
Example C90_met : text_is (XNodes [Some (lit " am  pm "); None]) (lit " am  pm ") /\
  words_are ex_tws (lit " am  pm ") [lit "am"; lit "pm"] /\
  fn_findsep ex_tws (fun _ => None) (XNodes [Some (lit " am  pm "); None]) (XNum (Some (-1)%Z) true) = Ok (RText (lit "pm")) /\
  fn_findsep ex_tws (fun _ => None) (XStr (lit " am  pm ")) (XNum (Some 2%Z) true) = Raise IndexError /\
  fn_default [XNodes []; XStr []; XNodes [Some (lit "x")]; XNodes [None]] = Ok (RText (lit "x")).
Proof.
  split; [constructor|]. split; [|repeat split; vm_compute; reflexivity].
  assert (forall s, forallb ex_tws s = true -> forall c, In c s -> ex_tws c = true) as W by (intros s H; now apply forallb_forall).
  assert (forall s, forallb (fun c => negb (ex_tws c)) s = true -> forall c, In c s -> ex_tws c = false) as V
    by (intros s H c Hc; apply negb_true_iff; rewrite forallb_forall in H; now apply H).
  change (lit " am  pm ") with (lit " " ++ lit "am" ++ lit "  pm "). apply wa_word; [now apply W|discriminate|now apply V|right; eexists _, _; split; reflexivity|].
  change (lit "  pm ") with (lit "  " ++ lit "pm" ++ lit " "). apply wa_word; [now apply W|discriminate|now apply V|right; eexists _, _; split; reflexivity|].
  apply wa_none. now apply W.
Qed.

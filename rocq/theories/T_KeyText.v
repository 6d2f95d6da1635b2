(** C42: keystrokes written as text. *)
From Coq Require Import String.
From Verif Require Import Py PyFacts M_UnicodeSets M_Flatten M_Keyboard T_Keyboard.
Local Open Scope list_scope.
Local Open Scope nat_scope.

(** a keystroke as it is written: any text without an opening bracket, and the modifiers and the key in brackets,
    with white space between them *)
Definition written (sep : pystr) (x : pystr * list pystr * pystr) : pystr :=
  let '(gap, mods, k) := x in gap ++ [91%N] ++ join sep (mods ++ [k]) ++ [93%N].

Section Text.
  Context (ws : N -> bool) (lower : pystr -> pystr) (pyint : pystr -> option Z).
  Context (sep : pystr).
  Hypothesis sep_some : sep <> [].
  Hypothesis sep_ws : forall c, In c sep -> ws c = true /\ c <> 93%N /\ c <> 10%N.
  Hypothesis ws_newline : ws 10%N = true.

  Definition word_ok (w : pystr) : Prop := w <> [] /\ forall c, In c w -> ws c = false /\ c <> 93%N.
  Definition stroke_ok (x : pystr * list pystr * pystr) : Prop :=
    let '(gap, mods, k) := x in ~ In 91%N gap /\ Forall word_ok mods /\ word_ok k.

  Lemma words_word w : forall acc s, (forall c, In c w -> ws c = false) -> words_from ws acc (w ++ s) = words_from ws (acc ++ w) s.
  Proof.
    induction w as [|c w IH]; intros acc s H; cbn [app words_from]; [now rewrite app_nil_r|]. rewrite (H c (or_introl eq_refl)), IH by (intros; apply H; now right).
    now rewrite <- app_assoc.
  Qed.
  Lemma words_spaces sp s : (forall c, In c sp -> ws c = true) -> words_from ws [] (sp ++ s) = words_from ws [] s.
  Proof. induction sp as [|c sp IH]; intro H; [reflexivity|]. cbn [app words_from]. rewrite (H c (or_introl eq_refl)). apply IH. intros; apply H; now right. Qed.
  Lemma words_sep w s : w <> [] -> words_from ws w (sep ++ s) = w :: words_from ws [] s.
  Proof.
    intro Nw. destruct sep as [|c sp]; [congruence|]. cbn [app words_from]. rewrite (proj1 (sep_ws c (or_introl eq_refl))). destruct w; [congruence|].
    rewrite words_spaces; [reflexivity|]. intros; apply sep_ws; now right.
  Qed.
  Lemma words_join l : Forall word_ok l -> words ws (join sep l) = l.
  Proof.
    induction 1 as [|w l [Nw Hw] F IH]; [reflexivity|]. unfold words in *. destruct l as [|w' l].
    - cbn [join]. rewrite <- (app_nil_r w) at 1. rewrite words_word by (intros; now apply Hw). cbn [app words_from]. destruct w; [congruence|reflexivity].
    - change (join sep (w :: w' :: l)) with (w ++ sep ++ join sep (w' :: l)). rewrite words_word by (intros; now apply Hw).
      cbn [app]. rewrite words_sep by exact Nw. now rewrite IH.
  Qed.
  Lemma join_chars l c : Forall word_ok l -> In c (join sep l) -> c <> 93%N /\ c <> 10%N.
  Proof.
    induction 1 as [|w l [Nw Hw] F IH]; [contradiction|].
    assert (forall c, In c w -> c <> 93%N /\ c <> 10%N) as W by (intros x I; destruct (Hw x I); split; [assumption|congruence]).
    destruct l as [|w' l]; [apply W|].
    change (join sep (w :: w' :: l)) with (w ++ sep ++ join sep (w' :: l)). intro I. rewrite !in_app_iff in I. destruct I as [I|[I|I]]; [now apply W|now apply sep_ws|now apply IH].
  Qed.
  Lemma join_snoc l k : exists pre, join sep (l ++ [k]) = pre ++ k.
  Proof.
    induction l as [|w l [pre IH]]; [now exists []|]. destruct (l ++ [k]) as [|w' l'] eqn:E; [destruct l; discriminate|].
    cbn [app]. rewrite E. change (join sep (w :: w' :: l')) with (w ++ sep ++ join sep (w' :: l')). exists (w ++ sep ++ pre). rewrite IH, <- !app_assoc. reflexivity.
  Qed.
  Lemma lstrip_word w s : word_ok w -> lstrip ws (w ++ s) = w ++ s.
  Proof. intros [N H]. destruct w as [|c w]; [congruence|]. cbn [app lstrip]. now rewrite (proj1 (H c (or_introl eq_refl))). Qed.
  Lemma strip_join mods k : Forall word_ok mods -> word_ok k -> strip ws (join sep (mods ++ [k])) = join sep (mods ++ [k]).
  Proof.
    intros F K. unfold strip.
    assert (lstrip ws (join sep (mods ++ [k])) = join sep (mods ++ [k])) as ->.
    { destruct mods as [|w mods]; cbn [app].
      - cbn [join]. rewrite <- (app_nil_r k). now apply lstrip_word.
      - inversion F; subst. destruct (mods ++ [k]) as [|w' l'] eqn:E; [destruct mods; discriminate|].
        change (join sep (w :: w' :: l')) with (w ++ sep ++ join sep (w' :: l')). now apply lstrip_word. }
    destruct (join_snoc mods k) as [pre ->]. rewrite rev_app_distr, lstrip_word, <- rev_app_distr, rev_involutive; [reflexivity|].
    destruct K as [N H]. split; [intro E; apply (f_equal (@rev _)) in E; rewrite rev_involutive in E; now apply N|].
    intros c I. apply H. now apply in_rev.
  Qed.
  Lemma until_close_at w rest : ~ In 93%N w -> until_close (w ++ 93%N :: rest) = Some (w, rest).
  Proof.
    induction w as [|c w IH]; intro H; [reflexivity|]. cbn [app until_close]. destruct (N.eqb_spec c 93) as [->|_]; [now destruct H; left|].
    rewrite IH; [reflexivity|]. intro I. apply H. now right.
  Qed.
  Lemma bracketed_gap gap : forall f s, ~ In 91%N gap -> bracketed ws (length gap + f) (gap ++ s) = bracketed ws f s.
  Proof.
    induction gap as [|c gap IH]; intros f s H; [reflexivity|]. cbn [length Nat.add app bracketed].
    destruct (N.eqb_spec c 91) as [->|_]; [now destruct H; left|]. apply IH. intro I. apply H. now right.
  Qed.
  Lemma bracketed_tail f : forall tl, ~ In 91%N tl -> bracketed ws f tl = [].
  Proof.
    induction f as [|f IH]; intros [|c tl] H; try reflexivity. cbn [bracketed]. destruct (N.eqb_spec c 91) as [->|_]; [now destruct H; left|].
    apply IH. intro I. apply H. now right.
  Qed.
  Lemma inchars_no c s : ~ In c s -> inchars c s = false.
  Proof. intro H. unfold inchars. apply not_true_is_false. intro E. apply existsb_exists in E as (x & I & Q). apply N.eqb_eq in Q. now subst. Qed.
  Lemma bracketed_written l tl : Forall stroke_ok l -> ~ In 91%N tl -> forall f, length (concat (map (written sep) l) ++ tl) <= f ->
    bracketed ws f (concat (map (written sep) l) ++ tl) = map (fun x => join sep (snd (fst x) ++ [snd x])) l.
  Proof.
    intros F T. induction F as [|[[gap mods] k] l (G & M & K) F IH]; intros f L; [now apply bracketed_tail|].
    cbn [map concat written fst snd] in *. rewrite <- !app_assoc in L. rewrite <- !app_assoc.
    rewrite !app_length in L. cbn [length] in L. replace f with (length gap + (f - length gap)) by lia. rewrite bracketed_gap by exact G.
    destruct (f - length gap) as [|f'] eqn:Ef; [lia|]. cbn [app bracketed]. change (N.eqb 91 91) with true. cbv iota.
    assert (Forall word_ok (mods ++ [k])) as FW by (apply Forall_app; split; [exact M|now constructor]).
    rewrite until_close_at by (intro I; apply (join_chars _ _ FW) in I as [I _]; congruence).
    rewrite strip_join by assumption.
    rewrite inchars_no by (intro I; apply (join_chars _ _ FW) in I as [_ I]; congruence).
    f_equal. apply IH. rewrite app_length. lia.
  Qed.
  (** What is typed by a text is what is typed by its keystrokes one after the other. *)
  Theorem C42_written : forall kb l tl, Forall stroke_ok l -> ~ In 91%N tl ->
    process_string ws lower pyint kb (concat (map (written sep) l) ++ tl) =
    process_keys ws lower pyint kb [] (map (fun x => (snd x, map lower (snd (fst x)))) l).
  Proof.
    intros kb l tl F T. unfold process_string. rewrite bracketed_written by auto. generalize (@nil context) as hist.
    induction F as [|[[gap mods] k] l (G & M & K) F IH]; intro hist; [reflexivity|]. cbn [map fst snd process_brackets process_keys].
    unfold read_key. rewrite words_join by (apply Forall_app; split; [exact M|now constructor]). rewrite rev_app_distr. cbn [rev app bind].
    rewrite rev_involutive. destruct (process ws lower pyint kb hist k (map lower mods)) as [[c hist']|]; cbn [bind]; [|reflexivity]. now rewrite IH.
  Qed.
End Text.
Example C42_written_ex : concat (map (written (lit "  ")) [([], [], lit "C01"); (lit " x ", [lit "Ctrl"; lit "Shift"], lit "C02")]) ++ lit "]" = lit "[C01] x [Ctrl  Shift  C02]]"
  /\ Forall (stroke_ok (fun c => N.eqb c 32)) [([], [], lit "C01"); (lit " x ", [lit "Ctrl"; lit "Shift"], lit "C02")].
Proof.
  split; [reflexivity|]. repeat constructor; try (intro H; cbn in H; intuition discriminate); try discriminate; cbn in *; intuition (subst; try reflexivity; discriminate).
Qed.

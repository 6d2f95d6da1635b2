(** C44: what is shown after a key, with and without an error. *)
From Coq Require Import String.
From Verif Require Import Py PyFacts M_UnicodeSets M_Flatten M_Keyboard T_Keyboard T_Keyboard2.
Local Open Scope list_scope.
Local Open Scope nat_scope.

Lemma lset_error c i l : c_error (lset c i l) = c_error c.
Proof. now destruct i. Qed.
Lemma results_error c i n r : c_error (results c i n r) = c_error c.
Proof. unfold results. cbv zeta. match goal with |- context [if ?b then _ else _] => destruct b end; apply lset_error. Qed.
Lemma reset_error c i : c_error (reset_output c i) = c_error c.
Proof. apply lset_error. Qed.
Lemma simple_loop_error t pa fa fb i : forall fuel rest c b c', simple_loop fuel t pa fa fb i rest c = Ok (b, c') -> c_error c' = c_error c.
Proof.
  induction fuel as [|f IH]; intros rest c b c' H; destruct rest as [|x rest]; cbn [simple_loop] in H; try discriminate; try (injection H as <- <-; reflexivity).
  destruct (rules_match t (x :: rest) pa fa) as [[r n]|e]; cbn [bind] in H; [|discriminate]. destruct r as [rl|].
  - destruct (is_error rl); [injection H as <- <-; reflexivity|]. apply IH in H. now rewrite H, results_error.
  - destruct (Nat.eqb n 0 && negb fb)%bool; [|injection H as <- <-; reflexivity]. apply IH in H. now rewrite H, results_error.
Qed.
Lemma process_empty_error c i : c_error (process_empty c i) = c_error c.
Proof. unfold process_empty. cbv zeta. now rewrite results_error, reset_error. Qed.
Section R.
  Context (ws : N -> bool) (lower : pystr -> pystr) (pyint : pystr -> option Z).
  Lemma reorder_char_error instr i p c r ctx r' ctx' :
    reorder_char instr i p c (r, ctx) = Ok (r', ctx') -> c_error ctx' = c_error ctx.
  Proof.
    unfold reorder_char. intro H.
    match type of H with (let '(_, _) := ?x in _) = _ => destruct x as [[key prim] base] end. cbv zeta in H.
    match type of H with (if ?b then _ else _) = _ => destruct b end.
    - destruct (sort_run _ _) as [o|e]; cbn [bind] in H; [|discriminate]. injection H as <- <-. apply results_error.
    - injection H as <- <-. reflexivity.
  Qed.
  Lemma reorder_codes_error instr i : forall cs p r ctx r' ctx',
    reorder_codes instr i p cs (r, ctx) = Ok (r', ctx') -> c_error ctx' = c_error ctx.
  Proof.
    induction cs as [|c cs IH]; intros p r ctx r' ctx' H; cbn [reorder_codes] in H; [injection H as <- <-; reflexivity|].
    destruct (reorder_char instr i p c (r, ctx)) as [[r1 c1]|e] eqn:E; cbn [bind] in H; [|discriminate].
    apply IH in H. rewrite H. eapply reorder_char_error, E.
  Qed.
  Lemma reorder_loop_error t instr i : forall fuel p r ctx r' ctx',
    reorder_loop ws lower pyint fuel t instr i p (r, ctx) = Ok (r', ctx') -> c_error ctx' = c_error ctx.
  Proof.
    induction fuel as [|f IH]; intros p r ctx r' ctx' H; cbn [reorder_loop] in H; destruct (skipn p instr) as [|x rest]; try discriminate; try (injection H as <- <-; reflexivity).
    destruct (get_charcodes ws lower pyint t (x :: rest)) as [codes|e]; cbn [bind] in H; [|discriminate].
    destruct (reorder_codes instr i p codes (r, ctx)) as [[r1 c1]|e] eqn:E; cbn [bind] in H; [|discriminate].
    apply IH in H. rewrite H. eapply reorder_codes_error, E.
  Qed.
  Lemma process_reorder_error t i c c' : process_reorder ws lower pyint t i c = Ok c' -> c_error c' = c_error c.
  Proof.
    unfold process_reorder. cbv zeta. intro H.
    destruct (scan_start _ _ _ _ _ _) as [n|e]; cbn [bind] in H; [|discriminate].
    match type of H with context [reorder_loop _ _ _ _ _ _ _ _ (?r, ?c)] => set (r0 := r) in H; set (c0 := c) in H end.
    destruct (reorder_loop _ _ _ _ _ _ _ _ (r0, c0)) as [[r1 c1]|e] eqn:E; cbn [bind] in H; [|discriminate].
    apply reorder_loop_error in E. assert (c_error c0 = c_error c) as E0.
    { unfold c0. destruct (Nat.eqb n 0); rewrite ?results_error; apply reset_error. }
    destruct (Nat.ltb _ _); [destruct (sort_run _ _) as [o|e]; cbn [bind] in H; [|discriminate]|]; injection H as <-; rewrite ?lset_error; congruence.
  Qed.
  Lemma simple_layer_error kb c b c' : simple_layer kb c = Ok (b, c') -> c_error c' = c_error c.
  Proof.
    unfold simple_layer. destruct (table kb _) as [t|]; intro H; [|injection H as <- <-; apply process_empty_error].
    apply simple_loop_error in H. rewrite H. apply reset_error.
  Qed.
  Lemma final_layer_error kb c b c' : final_layer kb c = Ok (b, c') -> c_error c' = c_error c.
  Proof.
    unfold final_layer. destruct (table kb _) as [t|]; intro H; [|injection H as <- <-; apply process_empty_error].
    apply simple_loop_error in H. rewrite H. apply reset_error.
  Qed.
  Lemma reorder_layer_error kb c c' : reorder_layer ws lower pyint kb c = Ok c' -> c_error c' = c_error c.
  Proof.
    unfold reorder_layer. destruct (table kb _) as [t|]; intro H; [|injection H as <-; apply process_empty_error].
    eapply process_reorder_error, H.
  Qed.

  (** the history of a keyboard that some keys were typed on *)
  Inductive typed (kb : keyboard) : list context -> Prop :=
  | typed_none : typed kb []
  | typed_key hist k mods c hist' : typed kb hist -> process ws lower pyint kb hist k mods = Ok (c, hist') -> typed kb hist'.
  (** the text that stands there *)
  Definition text_of (hist : list context) : pystr := match rev hist with [] => [] | c :: _ => l_out (c_final c) end.

  Lemma start_error hist chars : c_error (match rev hist with [] => new_context chars | c :: _ => clone c chars end) = false.
  Proof. now destruct (rev hist). Qed.
  Lemma process_cases kb hist k mods c hist' : process ws lower pyint kb hist k mods = Ok (c, hist') ->
    (c_error c = false /\ hist' = hist ++ [c]) \/ (c = error_context hist /\ hist' = hist).
  Proof.
    unfold process. intro H. destruct (map_key kb k mods) as [chars|e]; cbn [bind] in H; [|discriminate]. cbv zeta in H.
    pose proof (start_error hist chars) as S. set (c0 := match rev hist with [] => _ | _ => _ end) in *.
    destruct (streq k bksp).
    - unfold process_backspace in H. destruct (table kb _) as [t|]; cbn [bind] in H; [|discriminate].
      destruct (rules_match t _ false false) as [[r n]|e]; cbn [bind] in H; [|discriminate].
      destruct r as [rl|].
      + destruct (is_error rl); cbn [bind] in H; discriminate.
      + cbn [bind] in H. injection H as <- <-. left. split; [exact S|reflexivity].
    - destruct (simple_layer kb c0) as [[b1 c1]|e] eqn:E1; cbn [bind] in H; [|discriminate]. apply simple_layer_error in E1.
      destruct b1; [|injection H as <- <-; auto].
      destruct (reorder_layer ws lower pyint kb c1) as [c2|e] eqn:E2; cbn [bind] in H; [|discriminate]. apply reorder_layer_error in E2.
      destruct (final_layer kb c2) as [[b3 c3]|e] eqn:E3; cbn [bind] in H; [|discriminate]. apply final_layer_error in E3.
      destruct b3; injection H as <- <-; [left|right]; split; congruence.
  Qed.
  (** A key that meets a rule with an error changes nothing that later keys see, and shows the text so far between stars;
      every other key shows its text, which is the text from then on. *)
  Theorem C44_shown : forall kb hist k mods c hist', typed kb hist ->
    process ws lower pyint kb hist k mods = Ok (c, hist') ->
    (hist' = hist /\ shown c = [42%N] ++ text_of hist ++ [42%N]) \/
    (hist' = hist ++ [c] /\ shown c = text_of hist').
  Proof.
    intros kb hist k mods c hist' _ H. destruct (process_cases _ _ _ _ _ _ H) as [[E ->]|[-> ->]].
    - right. split; [reflexivity|]. unfold shown, text_of. rewrite E, rev_app_distr. reflexivity.
    - left. split; [reflexivity|]. unfold shown, error_context, text_of. destruct (rev hist); reflexivity.
  Qed.
  (** what was typed before never shows stars *)
  Theorem C44_history : forall kb hist, typed kb hist -> forall c, In c hist -> shown c = l_out (c_final c).
  Proof.
    intros kb hist T c I. assert (c_error c = false) as E; [|unfold shown; now rewrite E].
    induction T as [|hist k mods c0 hist' T IH H]; [contradiction|].
    destruct (process_cases _ _ _ _ _ _ H) as [[E ->]|[-> ->]]; [|auto].
    apply in_app_iff in I as [I|[<-|[]]]; auto.
  Qed.
End R.
Definition ex_kb : keyboard :=
  mkKeyboard [[(Some (lit "A"), Some (lit "a")); (Some (lit "B"), Some (lit "b"))]] [([], 0)]
    [(Some (lit "simple"), mkRules (Rule false [(lit "b", Rule true [] None [] [(lit "error", lit "fail")])] None [] []) false)] [].
Example C44_shown_ex : exists c1 c2,
  process (fun _ => false) (fun s => s) (fun _ => None) ex_kb [] (lit "A") [] = Ok (c1, [c1]) /\ shown c1 = lit "a" /\
  process (fun _ => false) (fun s => s) (fun _ => None) ex_kb [c1] (lit "B") [] = Ok (c2, [c1]) /\ shown c2 = lit "*a*".
Proof. do 2 eexists. split; [vm_compute; reflexivity|]. split; [reflexivity|]. split; [vm_compute; reflexivity|reflexivity]. Qed.

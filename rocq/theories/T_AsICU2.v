(** C61: concrete cases, and tailorings that writing as ICU rules changes. *)
From Coq Require Import QArith Qcanon Permutation Sorted.
From Verif Require Import Py PyFacts M_UnicodeSets P_UnicodeSets M_Collation P_CollEsc P_Collation P_Collation2 T_Collation
  M_Tailor P_Tailor T_Tailor T_Tailor2 M_TailorQ T_Tailor3 T_Tailor4 M_AsICU P_AsICU T_AsICU.
Open Scope nat_scope.

Definition ex_dval (c : N) : N := N.sub c 48.
Definition ex_write (by_key : bool) (wrap : nat) (s : pystr) : res pystr :=
  do r <- (if by_key then asICU (W := Qc) else asICU_by_order (W := Qc)) Qccompare (Q2Qc 0) (Q2Qc 1) bumpQ dropQ
     ex_space (fun _ => false) (ducetQ ex_d) 10 wrap (TSt (ex_parse s) [] false);
  Ok (snd r).

(** ** The hypotheses of C61 hold of "&a < x << y &[before 1]b < z" *)
Example C61_ex_sane : sane ex_space is_digit ex_dval.
Proof.
  split; [reflexivity|]. split; [reflexivity|]. split.
  - intros c [<-|[<-|[<-|[<-|[<-|[]]]]]]; reflexivity.
  - intros b [H1 H2]. unfold ex_space, is_digit, ex_dval.
    assert (X : (b = 1 \/ b = 2 \/ b = 3 \/ b = 4 \/ b = 5 \/ b = 6 \/ b = 7 \/ b = 8 \/ b = 9)%N) by lia.
    repeat (destruct X as [->|X]; [repeat split; reflexivity|]). subst. repeat split; reflexivity.
Qed.
Lemma ex_letter c : ex_space c = false -> ~ In c [10; 38; 47; 60; 61; 92]%N -> writable ex_space [c].
Proof.
  intros A B. split; [split|].
  - now exists c, []. - now exists c, []. - intros x [<-|[]]. exact B.
Qed.
Example C61_ex_good : forall k e, In (k, e) (ex_parse ex_text) -> good_item ex_space k e.
Proof.
  rewrite ex_elts. intros k e [E|[E|[E|[]]]]; injection E as <- <-; unfold good_item; cbn [t_base t_level t_before t_exp];
    (split; [apply ex_letter; [reflexivity|cbn; intuition discriminate]|]);
    (split; [apply ex_letter; [reflexivity|cbn; intuition discriminate]|]);
    (split; [now left|]); (split; [lia|]); (split; [lia|]); intros (r & X); discriminate X.
Qed.
Example C61_ex_keys : exists st', ex_run ex_text = Ok st' /\
  NoDup (map (fun p => t_order (snd p)) (ex_parse ex_text)) /\ own_bases (Q2Qc 0) st' (in_order (ex_parse ex_text)).
Proof.
  destruct C58_ex_succeeds as (st' & E). exists st'. split; [exact E|]. rewrite ex_elts. split.
  - repeat constructor; cbn; intuition discriminate.
  - intros pre pk pe k e post X. change (in_order _) with
      [(lit "x", TEl (lit "a") 1 0%N [1; 1] [] None None);
       (lit "y", TEl (lit "x") 2 0%N [1; 3] [] None None);
       (lit "z", TEl (lit "b") 1 1%N [2; 1] [] None None)] in X.
    destruct pre as [|? [|? [|? [|]]]]; cbn [app] in X.
    + injection X as <- <- <- <- _. reflexivity.
    + injection X as _ <- <- <- <- _. intros [Y _]. discriminate Y.
    + discriminate X.
    + discriminate X.
    + discriminate X.
Qed.
Example C61_ex_text : ex_write false 0 ex_text = Ok (lit "&a < x << y" ++ [10%N] ++ lit "&[before 1]b < z") /\
  ex_write true 0 ex_text = ex_write false 0 ex_text /\
  ex_write false 5 ex_text = Ok (lit "&a < x" ++ [10%N] ++ lit "<< y" ++ [10%N] ++ lit "&[before 1]b" ++ [10%N] ++ lit "< z").
Proof. vm_compute. auto. Qed.
(** an expansion is passed on to the elements that follow, and written out for them *)
Example C61_ex_expansion : ex_write false 0 (lit "&a = x = y/b < z") =
  Ok (lit "&a = x" ++ [10%N] ++ lit "&x = y/b < z/b").
Proof. vm_compute. reflexivity. Qed.

(** ** What does not survive *)
(** With the default ordering, by key, an element put before a tailored element is written before that one is defined.
    The result cannot even be given keys. *)
Theorem C61_before_by_key_refuted :
  ex_write true 0 (lit "&a < x &[before 1]x < y") = Ok (lit "&[before 1]x < y" ++ [10%N] ++ lit "&a < x") /\
  (exists keys, ex_keys (lit "&a < x &[before 1]x < y") = Ok keys) /\
  ex_keys (lit "&[before 1]x < y" ++ [10%N] ++ lit "&a < x") = Raise IndexError.
Proof. split; [vm_compute; reflexivity|]. split; [eexists; vm_compute; reflexivity|vm_compute; reflexivity]. Qed.
(** An element continues after one that agrees with its base only up to the level of its relation. It then gets the
    lower weights of that one: here z gets the secondary weight of y. *)
Theorem C61_lower_levels_refuted :
  ex_write false 0 (lit "&a < x << y &x < z") = Ok (lit "&a < x << y < z") /\
  ex_keys (lit "&a < x << y &x < z") <> ex_keys (lit "&a < x << y < z").
Proof. split; [vm_compute; reflexivity|]. vm_compute. intros X. discriminate X. Qed.
(** An element given twice: what follows the second one is attached to the first. *)
Theorem C61_twice_refuted :
  ex_write false 0 (lit "&a < x &b < x < y") = Ok (lit "&a < x" ++ [10%N] ++ lit "&b < x" ++ [10%N] ++ lit "&x  < y") /\
  ex_keys (lit "&a < x &b < x < y") <> ex_keys (lit "&a < x" ++ [10%N] ++ lit "&b < x" ++ [10%N] ++ lit "&x  < y").
Proof. split; [vm_compute; reflexivity|]. vm_compute. intros X. discriminate X. Qed.
(** An ampersand or an operator in an element is escaped, but reading looks for these before it undoes the escapes. *)
Theorem C61_special_refuted :
  map fst (ex_parse (lit "&a < \u0026")) = [lit "&"] /\ ex_write false 0 (lit "&a < \u0026") = Ok (lit "&a < \&") /\
  map fst (ex_parse (lit "&a < \&")) = [lit "\"] /\
  map fst (ex_parse (lit "&a < \u003C")) = [lit "<"] /\ ex_write false 0 (lit "&a < \u003C") = Ok (lit "&a < \<") /\
  map fst (ex_parse (lit "&a < \<")) = [lit "\"; []].
Proof. vm_compute. repeat split; reflexivity. Qed.
(** More than four "<" count as equality, and are written as three. *)
Theorem C61_five_refuted :
  ex_write false 0 (lit "&a <<<<< x") = Ok (lit "&a <<< x") /\
  ex_keys (lit "&a <<<<< x") <> ex_keys (lit "&a <<< x").
Proof. split; [vm_compute; reflexivity|]. vm_compute. intros X. discriminate X. Qed.

From Coq Require Import NArith List Bool Lia Arith.
From Verif Require Import M_Base M_DfsanPass M_DfsanAbi S_DfsanAbi.
Import ListNotations.
Open Scope N_scope.

Lemma is_in_true L n c : is_in L n c = true <-> listed_in L n c.
Proof. unfold is_in, listed_in. rewrite orb_true_iff. tauto. Qed.
Lemma is_in_false L n c : is_in L n c = false <-> ~ listed_in L n c.
Proof. rewrite <- is_in_true. destruct (is_in L n c); split; congruence. Qed.
Lemma instr_true L n : is_instrumented L n = true <-> ~ listed L n.
Proof. unfold is_instrumented, listed. rewrite negb_true_iff. apply is_in_false. Qed.
Lemma instr_false L n : is_instrumented L n = false <-> listed L n.
Proof. unfold is_instrumented, listed. rewrite negb_false_iff. apply is_in_true. Qed.

Section Run.
  Context {Lb W : Type}.
  Variable zero : Lb.
  Variable join : Lb -> Lb -> Lb.
  Variable sources : Lb -> N -> Prop.
  Hypothesis nothing : forall x, ~ sources zero x.
  Hypothesis both : forall a b x, sources (join a b) x <-> sources a x \/ sources b x.
  Notation tlsL := (@tls Lb).
  Variable native : N -> list N -> W -> N * W * tlsL.
  Variable body custom : N -> list N -> list Lb -> W -> N * Lb * W * tlsL.
  Variable L : abilist.
  Variable M : modul.
  Hypothesis D : distinct M.

  Notation native_r := (returns native).
  Notation body_r := (returns_labelled body).
  Notation custom_r := (returns_labelled custom).

  Lemma together_fold r : forall l x, sources (fold_left join r l) x <-> exists l', In l' (l :: r) /\ sources l' x.
  Proof.
    induction r as [|a r IH]; intros l x; cbn [fold_left].
    - split. { intros H. exists l. split; [now left|exact H]. } intros (l' & [E|[]] & H). now subst.
    - rewrite IH. split.
      + intros (l' & [E|I] & H).
        * subst l'. apply both in H. destruct H as [H|H]; [exists l|exists a]; (split; [cbn; tauto|exact H]).
        * exists l'. split; [cbn; tauto|exact H].
      + intros (l' & [E|[E|I]] & H).
        * subst l'. exists (join l a). split; [now left|]. apply both. now left.
        * subst l'. exists (join l a). split; [now left|]. apply both. now right.
        * exists l'. split; [now right|exact H].
  Qed.
  Lemma together_all ls : together sources (join_all zero join ls) ls.
  Proof.
    destruct ls as [|l r]; intros x.
    - cbn. split; [intros H; destruct (nothing _ H)|intros (l' & [] & _)].
    - apply together_fold.
  Qed.

  Lemma put_other (ls : list Lb) : forall (a : N -> Lb) off o, o < off -> put_args a off ls o = a o.
  Proof.
    induction ls as [|l r IH]; intros a off o H; cbn [put_args]; [reflexivity|].
    destruct (ARG_TLS <? off + SHADOW_BYTES); [reflexivity|].
    rewrite IH by (unfold SHADOW_BYTES; lia).
    destruct (N.eqb_spec o off); [lia|reflexivity].
  Qed.
  Lemma get_put (ls : list Lb) : forall (a : N -> Lb) off, off + 4 * N.of_nat (length ls) <= 800 -> get_args zero (put_args a off ls) off (length ls) = ls.
  Proof.
    induction ls as [|l r IH]; intros a off H; cbn [length get_args put_args]; [reflexivity|].
    cbn [length] in H. unfold ARG_TLS, SHADOW_BYTES in *.
    destruct (N.ltb_spec 800 (off + 4)); [lia|]. f_equal.
    - rewrite put_other by lia. now rewrite N.eqb_refl.
    - apply IH. lia.
  Qed.

  (* native runs *)
  Lemma native_own n f vals w x : find_fun (m_funs M) n = Some f ->
    exists v w' x', run_native zero native body L M n (fd_type f) vals w x = Ok (v, w', x') /\ own_code zero native_r body_r M n vals w v w'.
  Proof.
    intros F. unfold run_native, alias_made. rewrite (D _ _ F), F.
    destruct (fd_defined f) eqn:E.
    - destruct (body n vals (repeat zero (t_params (fd_type f))) w) as [[[v l] w'] x'] eqn:B.
      exists v, w', x'. split; [reflexivity|]. exists f. split; [exact F|]. rewrite E. exists l, x'. exact B.
    - destruct (native n vals w) as [[v w'] x'] eqn:B.
      exists v, w', x'. split; [reflexivity|]. exists f. split; [exact F|]. rewrite E. exists x'. exact B.
  Qed.
  Lemma native_alias n t f vals w x :
    find_alias (m_aliases M) n = Some t -> find_fun (m_funs M) t = Some f -> is_instrumented L n = false -> is_instrumented L t = true ->
    t_vararg (fd_type f) = false -> (t_params (fd_type f) <= 200)%nat -> length vals = t_params (fd_type f) ->
    exists v w' x', run_native zero native body L M n (fd_type f) vals w x = Ok (v, w', x') /\
      exists l, body_r t vals (repeat zero (length vals)) w v l w'.
  Proof.
    intros A F I1 I2 V P Len. unfold run_native, alias_made. rewrite A, I1, I2. cbn [eqb]. rewrite V.
    unfold run_body. cbn [tl_args].
    pose proof (get_put (repeat zero (t_params (fd_type f))) (tl_args x) 0) as G. rewrite repeat_length in G.
    rewrite G by lia. rewrite Len.
    destruct (body t vals (repeat zero (t_params (fd_type f))) w) as [[[v l] w'] x'] eqn:B.
    eexists v, w', _. split; [reflexivity|]. exists l, x'. exact B.
  Qed.

  Lemma wrapped_treated n t run vals labels w x :
    (exists v w' x', run_native zero native body L M n t vals w x = Ok (v, w', x') /\ run v w') ->
    exists v l w' x', run_wrapped zero join native body custom L M n t vals labels w x = Ok (v, l, w', x') /\
      treated zero sources custom_r L n run vals labels w v l w'.
  Proof.
    intros (v & w' & x' & R & O). unfold run_wrapped, wrapper_kind.
    destruct (is_in L n Functional) eqn:E1; [apply is_in_true in E1|apply is_in_false in E1].
    { rewrite R. cbn. eexists v, _, w', x'. split; [reflexivity|]. apply treated_functional; auto. apply together_all. }
    destruct (is_in L n Discard) eqn:E2; [apply is_in_true in E2|apply is_in_false in E2].
    { rewrite R. cbn. eexists v, _, w', x'. split; [reflexivity|]. apply treated_discard; auto. }
    destruct (is_in L n Custom) eqn:E3; [apply is_in_true in E3|apply is_in_false in E3].
    { destruct (custom n vals labels w) as [[[v1 l1] w1] x1] eqn:C. exists v1, l1, w1, x1. split; [reflexivity|].
      apply treated_custom; auto. exists x1. exact C. }
    rewrite R. cbn. eexists v, _, w', x'. split; [reflexivity|]. apply treated_other; auto.
  Qed.

  Definition RC := run_call zero join native body custom L M.
  Definition RP := run_plain zero join native body custom L M.

  Lemma plain_body n t vals labels w x :
    (t_params t <= 200)%nat -> length labels = t_params t ->
    exists v l w' x' lb, RP (XBody n) t vals labels w x = Ok (v, l, w', x') /\ body_r n vals labels w v lb w' /\ (t_void t = false -> l = lb).
  Proof.
    intros P Len. unfold RP, run_plain. cbn [run_code bind]. unfold run_body. cbn [tl_args].
    rewrite <- Len, firstn_all. rewrite get_put by lia.
    destruct (body n vals labels w) as [[[v l] w'] x'] eqn:B. cbn.
    destruct (t_void t); eexists v, _, w', _, l; (split; [reflexivity|]); (split; [now exists x'|]); [discriminate|reflexivity].
  Qed.
  Lemma plain_forward c n t run vals labels w x :
    (c = XWrapper n \/ exists a, c = XAlias a n) ->
    (t_params t <= 200)%nat -> length labels = t_params t -> t_vararg t = false ->
    (forall x, exists v w' x', run_native zero native body L M n t vals w x = Ok (v, w', x') /\ run v w') ->
    exists v l w' x' lb, RP c t vals labels w x = Ok (v, l, w', x') /\
      treated zero sources custom_r L n run vals labels w v lb w' /\ (t_void t = false -> l = lb).
  Proof.
    intros C P Len V R. unfold RP, run_plain.
    assert (E : forall y, run_code zero join native body custom L M c t vals w y = run_forward zero join native body custom L M n t vals w y)
      by (intros y; destruct C as [->|(a & ->)]; reflexivity).
    rewrite E. unfold run_forward. rewrite V. cbn [tl_args].
    rewrite <- Len, firstn_all. rewrite get_put by lia.
    destruct (wrapped_treated n t run vals labels w (mkTls (put_args (tl_args x) 0 labels) (tl_ret x)) (R _)) as (v & l & w' & x' & E1 & T).
    rewrite E1. cbn.
    destruct (t_void t); eexists v, _, w', _, l; (split; [reflexivity|]); (split; [exact T|]); [discriminate|reflexivity].
  Qed.

  Lemma zav t : zero_args_void t = true -> t_params t = O /\ t_vararg t = false /\ t_void t = true.
  Proof.
    unfold zero_args_void. intros H. apply andb_true_iff in H. destruct H as [H H3]. apply andb_true_iff in H. destruct H as [H1 H2].
    apply Nat.eqb_eq in H1. apply negb_true_iff in H2. auto.
  Qed.

  (* a listed function or function made from a listed alias, left alone *)
  Lemma plain_native n t run vals labels w x :
    t_void t = true -> wkind_eqb (wrapper_kind L n) WKCustom = false ->
    (forall x, exists v w' x', run_native zero native body L M n t vals w x = Ok (v, w', x') /\ run v w') ->
    exists v l w' x' lb, RP (XNative n) t vals labels w x = Ok (v, l, w', x') /\
      treated zero sources custom_r L n run vals labels w v lb w' /\ (t_void t = false -> l = lb).
  Proof.
    intros V K R. unfold RP, run_plain. cbn [run_code].
    destruct (R (mkTls (put_args (tl_args x) 0 (firstn (t_params t) labels)) (tl_ret x))) as (v & w' & x' & E & O).
    rewrite E. cbn. rewrite V. unfold wrapper_kind in K.
    destruct (is_in L n Functional) eqn:E1; [apply is_in_true in E1|apply is_in_false in E1].
    { exists v, zero, w', x', (join_all zero join labels). split; [reflexivity|]. split; [|discriminate].
      apply treated_functional; auto. apply together_all. }
    destruct (is_in L n Discard) eqn:E2; [apply is_in_true in E2|apply is_in_false in E2].
    { exists v, zero, w', x', zero. split; [reflexivity|]. split; [|discriminate]. apply treated_discard; auto. }
    destruct (is_in L n Custom) eqn:E3; [discriminate K|apply is_in_false in E3].
    exists v, zero, w', x', zero. split; [reflexivity|]. split; [|discriminate]. apply treated_other; auto.
  Qed.

  Lemma plain_fun n t run vals labels w x :
    is_instrumented L n = false ->
    (t_params t <= 200)%nat -> length labels = t_params t -> t_vararg t = false ->
    (forall x, exists v w' x', run_native zero native body L M n t vals w x = Ok (v, w', x') /\ run v w') ->
    exists v l w' x' lb, RP (fun_code L n t) t vals labels w x = Ok (v, l, w', x') /\
      treated zero sources custom_r L n run vals labels w v lb w' /\ (t_void t = false -> l = lb).
  Proof.
    intros I P Len V R. unfold fun_code. rewrite I.
    destruct (negb (zero_args_void t) || wkind_eqb (wrapper_kind L n) WKCustom) eqn:Z.
    - apply plain_forward; auto.
    - apply orb_false_iff in Z. destruct Z as [Z1 Z2]. apply negb_false_iff in Z1. apply zav in Z1. apply plain_native; tauto.
  Qed.

  (* a call by name of a listed function *)
  Lemma name_fun n t run inv vals labels w x :
    pointer L M n = Some (fun_code L n t) ->
    is_instrumented L n = false ->
    (t_params t <= 200)%nat -> length labels = t_params t -> t_vararg t = false ->
    (forall x, exists v w' x', run_native zero native body L M n t vals w x = Ok (v, w', x') /\ run v w') ->
    exists v l w' x' lb, RC (ByName n) inv t vals labels w x = Ok (v, l, w', x') /\
      treated zero sources custom_r L n run vals labels w v lb w' /\ (t_void t = false -> l = lb).
  Proof.
    intros Pt I P Len V R. unfold RC, run_call. unfold unwrapped. rewrite Pt.
    destruct (fun_code L n t) eqn:FC; try (rewrite <- FC; apply plain_fun; auto; fail).
    assert (n0 = n) as ->.
    { unfold fun_code in FC. rewrite I in FC. destruct (negb (zero_args_void t) || wkind_eqb (wrapper_kind L n) WKCustom); congruence. }
    rewrite N.eqb_refl.
    destruct (wkind_eqb (wrapper_kind L n) WKCustom && inv); [rewrite <- FC; apply plain_fun; auto|].
    destruct (wrapped_treated n t run vals labels w x (R _)) as (v & l & w' & x' & E1 & T).
    exists v, l, w', x', l. split; [exact E1|]. split; [exact T|]. reflexivity.
  Qed.

  Theorem calls_as_listed n k inv t vals labels w x :
    names L M n k -> type_of M n = Some t -> t_vararg t = false -> (t_params t <= 200)%nat ->
    length vals = t_params t -> length labels = t_params t ->
    exists v l w' x' lb, RC k inv t vals labels w x = Ok (v, l, w', x') /\
      as_listed zero sources native_r body_r custom_r L M n vals labels w v lb w' /\ (t_void t = false -> l = lb).
  Proof.
    intros K T V P L1 L2. unfold type_of in T.
    destruct (find_alias (m_aliases M) n) as [tn|] eqn:A.
    - destruct (find_fun (m_funs M) tn) as [f|] eqn:F; [|discriminate]. injection T as <-.
      assert (Alt : is_instrumented L tn = false ->
        forall x, exists v w' x', run_native zero native body L M tn (fd_type f) vals w x = Ok (v, w', x') /\ own_code zero native_r body_r M tn vals w v w')
        by (intros _ y; now apply native_own).
      assert (PT : pointer L M n = match alias_made L M n with
          | Some _ => if is_instrumented L n then Some (XAlias n tn) else Some (fun_code L n (fd_type f))
          | None => Some (fun_code L tn (fd_type f)) end) by (unfold pointer; now rewrite A, F).
      assert (AM : alias_made L M n = if eqb (is_instrumented L n) (is_instrumented L tn) then None else Some tn)
        by (unfold alias_made; now rewrite A).
      assert (NE : n <> tn) by (intros ->; rewrite (D _ _ F) in A; discriminate).
      (* an alias that stays one, or becomes instrumented, is called through a pointer *)
      assert (PL : is_instrumented L n = true \/ is_instrumented L n = is_instrumented L tn ->
        exists c, pointer L M n = Some c /\ RC k inv (fd_type f) vals labels w x = RP c (fd_type f) vals labels w x).
      { intros H. destruct (pointer L M n) as [c|] eqn:PC.
        2:{ exfalso. rewrite AM in PT. destruct (eqb (is_instrumented L n) (is_instrumented L tn)); [discriminate|]. destruct (is_instrumented L n); discriminate. }
        exists c. split; [reflexivity|]. destruct K as [->|(c' & E & ->)].
        2:{ rewrite PC in E. injection E as <-. reflexivity. }
        unfold RC, run_call. rewrite PC. unfold unwrapped. rewrite PC.
        destruct c as [m|m|m|a m]; try reflexivity.
        destruct (N.eqb_spec m n) as [->|]; [|reflexivity]. exfalso.
        rewrite AM in PT. destruct (eqb (is_instrumented L n) (is_instrumented L tn)) eqn:EB.
        - unfold fun_code in PT. destruct (is_instrumented L tn); [discriminate|].
          destruct (negb (zero_args_void (fd_type f)) || wkind_eqb (wrapper_kind L tn) WKCustom); [|discriminate]. congruence.
        - destruct H as [H|H]; [rewrite H in PT; discriminate|]. rewrite H in EB. destruct (is_instrumented L tn); discriminate. }
      destruct (is_instrumented L tn) eqn:IT; [pose proof (proj1 (instr_true L tn) IT) as NT|pose proof (proj1 (instr_false L tn) IT) as NT];
      (destruct (is_instrumented L n) eqn:IN; [pose proof (proj1 (instr_true L n) IN) as NN|pose proof (proj1 (instr_false L n) IN) as NN]);
      cbn [eqb] in AM; rewrite AM in PT.
      + destruct PL as (c & Pc & E); [now left|]. rewrite PT in Pc. injection Pc as <-. rewrite E.
        unfold fun_code. rewrite IT.
        destruct (plain_body tn (fd_type f) vals labels w x P L2) as (v & l & w' & x' & lb & R1 & R2 & R3).
        exists v, l, w', x', lb. split; [exact R1|]. split; [|exact R3]. now apply (call_alias _ _ _ _ _ _ _ _ _ _ _ _ _ _ tn).
      + assert (R : forall x, exists v w' x', run_native zero native body L M n (fd_type f) vals w x = Ok (v, w', x') /\
          exists l, body_r tn vals (repeat zero (length vals)) w v l w') by (intros y; now apply native_alias).
        assert (exists v l w' x' lb, RC k inv (fd_type f) vals labels w x = Ok (v, l, w', x') /\
          treated zero sources custom_r L n (fun v w' => exists l, body_r tn vals (repeat zero (length vals)) w v l w') vals labels w v lb w'
            /\ (t_void (fd_type f) = false -> l = lb)) as (v & l & w' & x' & lb & R1 & R2 & R3).
        { destruct K as [->|(c & E & ->)].
          - apply name_fun; auto.
          - rewrite PT in E. injection E as <-. apply plain_fun; auto. }
        exists v, l, w', x', lb. split; [exact R1|]. split; [|exact R3]. now apply (call_listed_alias _ _ _ _ _ _ _ _ _ _ _ _ _ _ tn).
      + destruct PL as (c & Pc & E); [now left|]. rewrite PT in Pc. injection Pc as <-. rewrite E.
        destruct (plain_forward (XAlias n tn) tn (fd_type f) (own_code zero native_r body_r M tn vals w) vals labels w x) as (v & l & w' & x' & lb & R1 & R2 & R3); auto.
        { right. now exists n. }
        exists v, l, w', x', lb. split; [exact R1|]. split; [|exact R3]. now apply (call_alias_of_listed _ _ _ _ _ _ _ _ _ _ _ _ _ _ tn).
      + destruct PL as (c & Pc & E); [now right|]. rewrite PT in Pc. injection Pc as <-. rewrite E.
        destruct (plain_fun tn (fd_type f) (own_code zero native_r body_r M tn vals w) vals labels w x) as (v & l & w' & x' & lb & R1 & R2 & R3); auto.
        exists v, l, w', x', lb. split; [exact R1|]. split; [|exact R3]. now apply (call_alias_of_listed _ _ _ _ _ _ _ _ _ _ _ _ _ _ tn).
    - destruct (find_fun (m_funs M) n) as [f|] eqn:F; [|discriminate]. injection T as <-.
      assert (PT : pointer L M n = Some (fun_code L n (fd_type f))) by (unfold pointer; now rewrite A, F).
      destruct (is_instrumented L n) eqn:IN; [pose proof (proj1 (instr_true L n) IN) as NN|pose proof (proj1 (instr_false L n) IN) as NN].
      + assert (E : RC k inv (fd_type f) vals labels w x = RP (XBody n) (fd_type f) vals labels w x).
        { unfold fun_code in PT. rewrite IN in PT. destruct K as [->|(c & E & ->)].
          - unfold RC, run_call, unwrapped. now rewrite PT.
          - rewrite PT in E. injection E as <-. reflexivity. }
        rewrite E.
        destruct (plain_body n (fd_type f) vals labels w x P L2) as (v & l & w' & x' & lb & R1 & R2 & R3).
        exists v, l, w', x', lb. split; [exact R1|]. split; [|exact R3]. now apply call_function.
      + assert (R : forall x, exists v w' x', run_native zero native body L M n (fd_type f) vals w x = Ok (v, w', x') /\
          own_code zero native_r body_r M n vals w v w') by (intros y; now apply native_own).
        assert (exists v l w' x' lb, RC k inv (fd_type f) vals labels w x = Ok (v, l, w', x') /\
          treated zero sources custom_r L n (own_code zero native_r body_r M n vals w) vals labels w v lb w'
            /\ (t_void (fd_type f) = false -> l = lb)) as (v & l & w' & x' & lb & R1 & R2 & R3).
        { destruct K as [->|(c & E & ->)].
          - apply name_fun; auto.
          - rewrite PT in E. injection E as <-. apply plain_fun; auto. }
        exists v, l, w', x', lb. split; [exact R1|]. split; [|exact R3]. now apply call_listed.
  Qed.

  (* variadic functions, by name *)
  Theorem variadic_by_name n f inv vals labels w x :
    find_fun (m_funs M) n = Some f -> t_vararg (fd_type f) = true -> listed L n ->
    (inv = true -> ~ listed_in L n Custom \/ listed_in L n Functional \/ listed_in L n Discard) ->
    exists v l w' x', RC (ByName n) inv (fd_type f) vals labels w x = Ok (v, l, w', x') /\
      as_listed zero sources native_r body_r custom_r L M n vals labels w v l w'.
  Proof.
    intros F V Li H. pose proof (D _ _ F) as A. pose proof (proj2 (instr_false L n) Li) as I.
    unfold RC, run_call, unwrapped, pointer. rewrite A, F.
    assert (Z : fun_code L n (fd_type f) = XWrapper n).
    { unfold fun_code, zero_args_void. rewrite I, V. cbn [negb]. rewrite andb_false_r. cbn. reflexivity. }
    rewrite Z, N.eqb_refl.
    assert (wkind_eqb (wrapper_kind L n) WKCustom && inv = false) as ->.
    { destruct inv; [|apply andb_false_r]. rewrite andb_true_r. unfold wrapper_kind.
      destruct (is_in L n Functional) eqn:E1; [reflexivity|apply is_in_false in E1].
      destruct (is_in L n Discard) eqn:E2; [reflexivity|apply is_in_false in E2].
      destruct (is_in L n Custom) eqn:E3; [apply is_in_true in E3|reflexivity].
      destruct (H eq_refl) as [?|[?|?]]; contradiction. }
    destruct (wrapped_treated n (fd_type f) (own_code zero native_r body_r M n vals w) vals labels w x) as (v & l & w' & x' & E1 & T).
    { now apply native_own. }
    exists v, l, w', x'. split; [exact E1|]. now apply call_listed.
  Qed.
End Run.

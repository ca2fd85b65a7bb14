(** C97: navigation in traces.  A run of a thread is a tree of calls (S_Calls); its trace is the
    list of its events. *)
From Coq Require Import NArith List Bool Arith Lia.
From Verif Require Import M_Base M_PyTrace S_Calls P_Base P_PyTrace.
Import ListNotations.
Open Scope nat_scope.

Lemma start_pos p : pos p [] = S p.
Proof. unfold pos. cbn. lia. Qed.

(** What the classes leave open is as their documentation says: the entry of the function of an
    event is that of the call it is part of; the return of an entry is that of the call. *)
Theorem C97_matching : forall root p f body r, run root -> occurs root p (ICall f body r) ->
  (forall q i, In (q, i) (places (S p) body) -> function_entry (flat root) q = Some p) /\
  function_return (flat root) p = (if r then Some (S p + length (flats body)) else None) /\
  (r = true -> function_entry (flat root) (S p + length (flats body)) = Some p).
Proof.
  intros root p f body r Ru O. destruct (occurs_frame root p f body r Ru O) as (tail & F & T). split; [|split].
  - intros q i I. apply places_split in I as (a & b & E & ->). subst body. assert (R := fr_rest _ _ _ _ _ _ F).
    assert (Ca : Forall closed a).
    { inversion R as [t post C E1 E2|t C E1 E2|t c C Co E1 E2]; subst; try (apply Forall_app in C; tauto).
      destruct (exists_last (l := i :: b)) as (b0 & x & Eb); [discriminate|]. rewrite Eb, app_assoc in E1. apply app_inj_tail in E1 as [-> _]. apply Forall_app in C. tauto. }
    apply fr_steps in F; [|exact Ca]. exact (fr_entry _ _ _ _ _ _ F).
  - destruct r; [destruct T as (post & ->); exact (own_return _ _ _ _ _ F)|]. rewrite T in F. exact (own_cut _ _ _ _ F).
  - intros ->. destruct T as (post & ->). assert (R := fr_rest _ _ _ _ _ _ F). inversion R; subst. rewrite <- (app_nil_r body) in F. apply fr_steps in F; [|assumption].
    exact (fr_entry _ _ _ _ _ _ F).
Qed.

(** calls() yields the calls made by a call, in order. *)
Theorem C97_calls : forall root p f body r, run root -> occurs root p (ICall f body r) -> calls (flat root) p = Ok (calls_at (S p) body).
Proof.
  intros root p f body r Ru O. destruct (occurs_frame root p f body r Ru O) as (tail & F & T). unfold calls. rewrite (fr_start _ _ _ _ _ F).
  assert (Le := fr_len _ _ _ _ _ _ F). rewrite (calls_ok _ p f _ body [] tail); [now rewrite start_pos|exact F|lia|]. cbn [app].
  destruct r; [destruct T as (post & ->); exact (own_return _ _ _ _ _ F)|]. subst tail. exact (own_cut _ _ _ _ F).
Qed.

(** basic_blocks() yields its blocks, in order, if it starts with a block and calls nothing
    that is not instrumented. *)
Theorem C97_blocks_partial : forall root p f body r, run root -> occurs root p (ICall f body r) -> starts_with_block body -> no_extern body ->
  basic_blocks (flat root) p = Ok (blocks_at (S p) body).
Proof.
  intros root p f body r Ru O Sb Ne. destruct (occurs_frame root p f body r Ru O) as (tail & F & T). unfold basic_blocks.
  rewrite (entrypoint_ok _ _ _ _ _ F Sb). cbn [bind]. assert (Le := fr_len _ _ _ _ _ _ F). rewrite (blocks_ok _ p f body [] tail); [now rewrite start_pos|exact F|lia|exact Ne].
Qed.

(** Iterating over an invocation yields its blocks and calls, in order, if besides each block
    makes at most one call. *)
Theorem C97_iter_partial : forall root p f body r, run root -> occurs root p (ICall f body r) -> starts_with_block body -> no_extern body -> one_call_per_block body ->
  invocation_iter (flat root) p = Ok (items_at (S p) body).
Proof.
  intros root p f body r Ru O Sb Ne Oc. unfold invocation_iter. rewrite (C97_blocks_partial root p f body r Ru O Sb Ne). cbn [bind].
  destruct (occurs_frame root p f body r Ru O) as (tail & F & T). assert (I := iter_ok _ p f body [] tail F Ne Oc). rewrite start_pos in I. rewrite <- I.
  assert (H := head_none _ p f body [] tail F). rewrite start_pos in H. rewrite H; [reflexivity|]. intros m j t -> Si. destruct (is_call j) eqn:E; [|reflexivity].
  assert (B := Sb m j t eq_refl Si). destruct j; try discriminate. specialize (B eq_refl). discriminate B.
Qed.

(** The caller of a function is the block that was entered last, in the call that called it. *)
Theorem C97_caller_partial : forall root p f a b m g body r t r', run root -> occurs root p (ICall f (a ++ IBlock b :: m ++ ICall g body r :: t) r') ->
  forallb (fun i => negb (is_block i)) m = true ->
  caller (flat root) (S p + length (flats (a ++ IBlock b :: m))) = Ok (Some (S p + length (flats a))).
Proof.
  intros root p f a b m g body r t r' Ru O Nb. destruct (occurs_frame root p f _ _ Ru O) as (tail & F & T).
  assert (E : a ++ IBlock b :: m ++ ICall g body r :: t = (a ++ IBlock b :: m) ++ ICall g body r :: t) by (now rewrite <- app_assoc). rewrite E in F.
  assert (R := fr_rest _ _ _ _ _ _ F). assert (Ca : Forall closed (a ++ IBlock b :: m)).
  { inversion R as [t0 post C E1 E2|t0 C E1 E2|t0 c C Co E1 E2]; subst; try (apply Forall_app in C; tauto).
    destruct (exists_last (l := ICall g body r :: t)) as (b0 & x & Eb); [discriminate|]. rewrite Eb, app_assoc in E1. apply app_inj_tail in E1 as [-> _]. apply Forall_app in C. tauto. }
  apply fr_steps in F; [|exact Ca]. cbn [app] in F. assert (Le := fr_len _ _ _ _ _ _ F). rewrite flats_app, app_length in Le. cbn [flats] in Le. rewrite app_length in Le.
  unfold caller. apply (caller_ok _ p f a b m (ICall g body r :: t) tail); [exact F|lia|exact Nb].
Qed.

(** entry_count() counts the earlier entries of the block in the same call. *)
Theorem C97_count : forall root p f a b t r, run root -> occurs root p (ICall f (a ++ IBlock b :: t) r) ->
  entry_count (flat root) (S p + length (flats a)) b = Ok (length (filter (fun i => match i with IBlock b' => N.eqb b' b | _ => false end) a)).
Proof.
  intros root p f a b t r Ru O. destruct (occurs_frame root p f _ _ Ru O) as (tail & F & T).
  assert (R := fr_rest _ _ _ _ _ _ F). assert (Ca : Forall closed a).
  { inversion R as [t0 post C E1 E2|t0 C E1 E2|t0 c C Co E1 E2]; subst; try (apply Forall_app in C; tauto).
    destruct (exists_last (l := IBlock b :: t)) as (b0 & x & Eb); [discriminate|]. rewrite Eb, app_assoc in E1. apply app_inj_tail in E1 as [-> _]. apply Forall_app in C. tauto. }
  apply fr_steps in F; [|exact Ca]. cbn [app] in F. assert (Le := fr_len _ _ _ _ _ _ F). unfold entry_count. change (S p + length (flats a)) with (pos p a).
  rewrite (fr_entry _ _ _ _ _ _ F). apply (count_ok _ p f b a (IBlock b :: t) tail); [exact F|lia].
Qed.

(** A call that returned, returned to the block that was entered next, if that is what happened
    next in the calling function. *)
Theorem C97_returning : forall root p f a g body m i t r, run root -> occurs root p (ICall f (a ++ ICall g body true :: m ++ i :: t) r) ->
  forallb is_silent m = true -> is_silent i = false ->
  exists k, function_return (flat root) (S p + length (flats a)) = Some k /\
    returning_to (flat root) k = (if is_block i then Some (S p + length (flats (a ++ ICall g body true :: m))) else None).
Proof.
  intros root p f a g body m i t r Ru O Sm Si. destruct (occurs_frame root p f _ _ Ru O) as (tail & F & T).
  assert (R := fr_rest _ _ _ _ _ _ F). assert (Ca : Forall closed (a ++ [ICall g body true])).
  { assert (E : a ++ ICall g body true :: m ++ i :: t = (a ++ [ICall g body true]) ++ m ++ i :: t) by (now rewrite <- app_assoc). rewrite E in R.
    inversion R as [t0 post C E1 E2|t0 C E1 E2|t0 c C Co E1 E2]; subst; try (apply Forall_app in C; tauto).
    destruct (exists_last (l := m ++ i :: t)) as (b0 & x & Eb); [destruct m; discriminate|]. rewrite Eb, app_assoc in E1. apply app_inj_tail in E1 as [-> _]. apply Forall_app in C. tauto. }
  apply Forall_app in Ca as [Ca Cc]. apply fr_steps in F; [|exact Ca]. cbn [app] in F. assert (C : closed (ICall g body true)) by now inversion Cc.
  destruct (fr_return_closed _ _ _ _ _ _ _ _ F C) as [E1 E2]. exists (pos (pos p a) body). split; [exact E1|]. unfold returning_to. rewrite E2, flats_app, <- app_assoc, skip_silent by exact Sm.
  assert (L : pos p (a ++ [ICall g body true]) + length (flats m) = S p + length (flats (a ++ ICall g body true :: m))).
  { replace (a ++ ICall g body true :: m) with ((a ++ [ICall g body true]) ++ m) by (now rewrite <- app_assoc). unfold pos. rewrite (flats_app (a ++ [ICall g body true]) m), app_length. lia. }
  rewrite L. destruct i; [reflexivity|reflexivity|discriminate Si|]. rewrite flats_cons, flat_call. reflexivity.
Qed.

(** ** Where it fails *)
(** Of two calls made by one block, iterating over the invocation yields only the first; what
    the second one read is not among the taints of the invocation. *)
Definition two_calls : item := ICall 1 [IBlock 1; ICall 2 [IBlock 2] true; ICall 3 [IBlock 3] true; IBlock 4] true.
Theorem C97_iter_refuted : exists root p f body r, run root /\ occurs root p (ICall f body r) /\ starts_with_block body /\ no_extern body /\
  exists l, invocation_iter (flat root) p = Ok l /\ l <> items_at (S p) body.
Proof.
  exists two_calls, 0, 1%N, [IBlock 1; ICall 2 [IBlock 2] true; ICall 3 [IBlock 3] true; IBlock 4], true.
  split; [split; [unfold two_calls; eauto|left; repeat constructor]|]. split; [constructor|].
  split; [intros [|x a] i t E Sa Si; cbn [app] in E; inversion E; subst; [reflexivity|discriminate Sa]|].
  split; [intros [H|[H|[H|[H|[]]]]]; discriminate H|].
  exists [1; 2; 8]. split; [vm_compute; reflexivity|vm_compute; discriminate].
Qed.
(** A function that calls another one before it enters a block seems to have no blocks, and the
    caller of the other one seems to be a block of another function. *)
Theorem C97_late_refuted : exists root p f body r q, run root /\ occurs root p (ICall f body r) /\ no_extern body /\ one_call_per_block body /\
  basic_blocks (flat root) p = Ok [] /\ blocks_at (S p) body <> [] /\
  In q (calls_at (S p) body) /\ exists k, caller (flat root) q = Ok (Some k) /\ function_entry (flat root) k <> Some p.
Proof.
  exists (ICall 1 [IBlock 1; ICall 2 [ICall 3 [IBlock 3] true; IBlock 2] true] true), 2, 2%N, [ICall 3 [IBlock 3] true; IBlock 2], true, 3.
  split; [split; [eauto|left; repeat constructor]|]. split; [econstructor 2; [constructor|]; right; left; reflexivity|].
  split; [intros [H|[H|[]]]; discriminate H|].
  split.
  { intros [|x [|y [|z a]]] i m j t E Sm Ci; cbn [app] in E; inversion E; subst; try (destruct m; discriminate); try discriminate Ci.
    destruct m as [|w m]; inversion H1; subst; [reflexivity|destruct m; discriminate]. }
  split; [vm_compute; reflexivity|]. split; [vm_compute; discriminate|]. split; [now left|]. exists 1. split; [vm_compute; reflexivity|vm_compute; discriminate].
Qed.
(** After an uninstrumented call the rest of the blocks is lost. *)
Theorem C97_extern_refuted : exists root p f body r, run root /\ occurs root p (ICall f body r) /\ starts_with_block body /\ one_call_per_block body /\
  exists l, basic_blocks (flat root) p = Ok l /\ l <> blocks_at (S p) body.
Proof.
  exists (ICall 1 [IBlock 1; IExtern; IBlock 2] true), 0, 1%N, [IBlock 1; IExtern; IBlock 2], true.
  split; [split; [eauto|left; repeat constructor]|]. split; [constructor|].
  split; [intros [|x a] i t E Sa Si; cbn [app] in E; inversion E; subst; [reflexivity|discriminate Sa]|].
  split. { intros [|x [|y [|z [|w a]]]] i m j t E Sm Ci; cbn [app] in E; inversion E; subst; try discriminate Ci; destruct a; discriminate. }
  exists [1]. split; [vm_compute; reflexivity|vm_compute; discriminate].
Qed.
(** The first function of any trace is found; if there is none, the answer is None. *)
Lemma first_entry_spec evs : forall k,
  (forall p, first_entry evs k = Some p -> k <= p /\ (exists f, nth_error evs (p - k) = Some (EEntry f)) /\
     forall q f, k <= q < p -> nth_error evs (q - k) <> Some (EEntry f)) /\
  (first_entry evs k = None -> forall f, ~ In (EEntry f) evs).
Proof.
  induction evs as [|e evs IH]; intros k; cbn [first_entry].
  - split; [discriminate|]. intros _ f [].
  - destruct e as [f|b| | |].
    1: { split; [|discriminate]. intros p E. injection E as <-. split; [lia|]. rewrite Nat.sub_diag. split; [now exists f|]. intros q g Q. lia. }
    all: destruct (IH (S k)) as [A B]; (split;
      [intros p E; destruct (A p E) as (P & (f & F) & M); split; [lia|]; replace (p - k) with (S (p - S k)) by lia; split; [now exists f|];
       intros q g Q; destruct (Nat.eq_dec q k) as [->|NQ]; [rewrite Nat.sub_diag; discriminate|];
       replace (q - k) with (S (q - S k)) by lia; apply (M q g); lia
      |intros E f [D|D]; [discriminate|now apply (B E f)]]).
Qed.
Theorem C97_first : forall fuel evs,
  (forall p, next_function_entry fuel evs None = Ok (Some p) <->
     (exists f, nth_error evs p = Some (EEntry f)) /\ forall q f, q < p -> nth_error evs q <> Some (EEntry f)) /\
  (next_function_entry fuel evs None = Ok None <-> forall f, ~ In (EEntry f) evs).
Proof.
  intros fuel evs. cbn [next_function_entry]. destruct (first_entry_spec evs 0) as [A B]. split.
  - intros p. split.
    + intros E. injection E as E. destruct (A p E) as (_ & F & M). rewrite Nat.sub_0_r in F. split; [exact F|].
      intros q f Q. specialize (M q f ltac:(lia)). now rewrite Nat.sub_0_r in M.
    + intros [(f & F) M]. destruct (first_entry evs 0) as [q|] eqn:E.
      * destruct (A q eq_refl) as (_ & (g & G) & M'). rewrite Nat.sub_0_r in G. f_equal. f_equal.
        destruct (Nat.lt_trichotomy p q) as [L|[->|L]]; [|reflexivity|].
        -- exfalso. apply (M' p f); [lia|]. now rewrite Nat.sub_0_r.
        -- exfalso. now apply (M q g).
      * exfalso. apply (B eq_refl f). now apply nth_error_In in F.
  - split.
    + intros E. injection E as E. now apply B.
    + intros H. destruct (first_entry evs 0) as [q|] eqn:E; [|reflexivity].
      destruct (A q eq_refl) as (_ & (g & G) & _). exfalso. apply (H g). now apply nth_error_In in G.
Qed.
Print Assumptions C97_first.
(** After a function that does not return, the function entered next is found if no other event
    of the control flow comes in between.  (Missing: C97_next_refuted.) *)
Lemma no_return l : ~ In EReturn l -> forall d i, match_return l d i = None.
Proof.
  induction l as [|e l IH]; intros H d i; [reflexivity|]. cbn [match_return].
  destruct e; try (apply IH; intros X; apply H; now right). exfalso. apply H. now left.
Qed.
Lemma skip_others mid e post : (forall x, In x mid -> x = EOther) -> is_cf e = true ->
  forall i, skip_to (mid ++ e :: post) i = Some (i + length mid, e).
Proof.
  intros M C. induction mid as [|x mid IH]; intros i; cbn [app skip_to length].
  - now rewrite C, Nat.add_0_r.
  - rewrite (M x) by now left. cbn [is_cf]. rewrite IH by (intros; apply M; now right). f_equal. f_equal. lia.
Qed.
Theorem C97_next_partial : forall fuel pre f mid g post,
  (forall x, In x mid -> x = EOther) -> ~ In EReturn post ->
  next_function_entry (S fuel) (pre ++ EEntry f :: mid ++ EEntry g :: post) (Some (length pre))
    = Ok (Some (length pre + 1 + length mid)) /\
  next_function_entry (S fuel) (pre ++ EEntry f :: mid) (Some (length pre)) = Ok None.
Proof.
  intros fuel pre f mid g post M R. unfold next_function_entry, function_return, next_cf.
  assert (K : forall t, skipn (S (length pre)) (pre ++ EEntry f :: t) = t).
  { intros t. replace (pre ++ EEntry f :: t) with ((pre ++ [EEntry f]) ++ t) by now rewrite <- app_assoc.
    rewrite skipn_app, skipn_all2 by (rewrite app_length; cbn; lia). rewrite app_length. cbn [length].
    replace (S (length pre) - (length pre + 1)) with 0 by lia. reflexivity. }
  assert (Q : ~ In EReturn mid) by (intros X; specialize (M _ X); discriminate).
  rewrite !K. split.
  - rewrite no_return by (intros X; apply in_app_or in X; destruct X as [X|[X|X]]; [now apply Q|discriminate|now apply R]).
    rewrite skip_others by (assumption || reflexivity). cbn [entry_loop]. f_equal. f_equal. lia.
  - rewrite no_return by exact Q.
    replace (skip_to mid (S (length pre))) with (@None place); [reflexivity|]. symmetry.
    generalize (S (length pre)). clear -M. induction mid as [|x mid IH]; intros i; [reflexivity|].
    cbn [skip_to]. rewrite (M x) by now left. cbn [is_cf]. apply IH. intros; apply M; now right.
Qed.
Print Assumptions C97_next_partial.
(** Asking for the next function after one that returned to a block does not end, though there
    is one. *)
Theorem C97_next_refuted : exists root p q, run root /\ occurs root 0 (ICall 1 [IBlock 1; ICall 2 [IBlock 2] true; IBlock 3; ICall 4 [] true] true) /\
  In p (calls_at 1 [IBlock 1; ICall 2 [IBlock 2] true; IBlock 3; ICall 4 [] true]) /\ In q (calls_at 1 [IBlock 1; ICall 2 [IBlock 2] true; IBlock 3; ICall 4 [] true]) /\
  p < q /\ forall fuel, next_function_entry fuel (flat root) (Some p) = Fuel.
Proof.
  exists (ICall 1 [IBlock 1; ICall 2 [IBlock 2] true; IBlock 3; ICall 4 [] true] true), 2, 6.
  split; [split; [eauto|left; repeat constructor]|]. split; [constructor|]. split; [now left|]. split; [right; now left|]. split; [lia|].
  intros fuel. unfold next_function_entry. match goal with |- entry_loop fuel ?x = _ => let y := eval vm_compute in x in replace x with y by reflexivity end.
  induction fuel as [|fuel IH]; [reflexivity|exact IH].
Qed.

(** ** A concrete case *)
Definition loop_run : item := ICall 1 [IBlock 1; IOther; ICall 2 [IBlock 7; IBlock 7] true; IBlock 2; IBlock 1; ICall 3 [IBlock 9; IOther] false] false.
Example C97_case : run loop_run /\ occurs loop_run 0 loop_run /\
  starts_with_block [IBlock 1; IOther; ICall 2 [IBlock 7; IBlock 7] true; IBlock 2; IBlock 1; ICall 3 [IBlock 9; IOther] false] /\
  basic_blocks (flat loop_run) 0 = Ok [1; 7; 8] /\ calls (flat loop_run) 0 = Ok [3; 9] /\ invocation_iter (flat loop_run) 0 = Ok [1; 3; 7; 8; 9] /\
  caller (flat loop_run) 9 = Ok (Some 8) /\ entry_count (flat loop_run) 8 1 = Ok 1 /\ function_return (flat loop_run) 3 = Some 6 /\ returning_to (flat loop_run) 6 = Some 7.
Proof.
  split; [split; [unfold loop_run; eauto|]|].
  - right. change loop_run with (ICall 1 ([IBlock 1; IOther; ICall 2 [IBlock 7; IBlock 7] true; IBlock 2; IBlock 1] ++ [ICall 3 [IBlock 9; IOther] false]) false). apply co_below; repeat constructor.
  - split; [constructor|]. split; [intros [|x a] i t E Sa Si; cbn [app] in E; inversion E; subst; [reflexivity|discriminate Sa]|]. vm_compute. repeat split.
Qed.

Print Assumptions C97_matching.
Print Assumptions C97_calls.
Print Assumptions C97_blocks_partial.
Print Assumptions C97_iter_partial.
Print Assumptions C97_caller_partial.
Print Assumptions C97_count.
Print Assumptions C97_returning.
Print Assumptions C97_iter_refuted.
Print Assumptions C97_late_refuted.
Print Assumptions C97_extern_refuted.
Print Assumptions C97_next_refuted.

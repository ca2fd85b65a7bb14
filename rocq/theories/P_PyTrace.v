(** Proofs for T_PyTrace. *)
From Coq Require Import NArith List Bool Arith Lia.
From Verif Require Import M_Base M_PyTrace S_Calls P_Base.
Import ListNotations.
Open Scope nat_scope.

Lemma flat_call f body r : flat (ICall f body r) = EEntry f :: flats body ++ if r then [EReturn] else [].
Proof. cbn [flat]. f_equal. Qed.
Lemma flats_app a b : flats (a ++ b) = flats a ++ flats b.
Proof. induction a as [|x a IH]; cbn [flats app]; [reflexivity|]. now rewrite IH, app_assoc. Qed.
Lemma flats_cons x l : flats (x :: l) = flat x ++ flats l.
Proof. reflexivity. Qed.

Section ItemInd.
  Variable P : item -> Prop.
  Hypotheses (Hb : forall b, P (IBlock b)) (He : P IExtern) (Ho : P IOther) (Hc : forall f body r, Forall P body -> P (ICall f body r)).
  Fixpoint item_rect' (i : item) : P i :=
    match i with
    | IBlock b => Hb b
    | IExtern => He
    | IOther => Ho
    | ICall f body r => Hc f body r ((fix go (l : list item) : Forall P l := match l with [] => Forall_nil P | x :: t => Forall_cons x (item_rect' x) (go t) end) body)
    end.
End ItemInd.

(** ** Matching *)
Lemma closed_return i : closed i -> forall tl d p, match_return (flat i ++ tl) d p = match_return tl d (p + length (flat i)).
Proof.
  induction i as [b| | |f body r IH] using item_rect'; intros C tl d p.
  1-3: cbn [flat app match_return length]; now rewrite Nat.add_1_r.
  inversion C as [| | |f' b' Fb E1]; subst. rewrite flat_call. cbn [app match_return length].
  assert (G : forall tl d p, match_return (flats body ++ tl) d p = match_return tl d (p + length (flats body))).
  { clear C. induction body as [|x l IHl]; intros tl' d' p'; cbn [flats app length]; [now rewrite Nat.add_0_r|].
    inversion IH; subst. inversion Fb; subst. rewrite <- app_assoc, H1 by assumption. rewrite IHl by assumption. rewrite app_length. f_equal. lia. }
  rewrite <- app_assoc, G. cbn [app match_return]. rewrite app_length. cbn [length]. f_equal. lia.
Qed.
Lemma closeds_return l : Forall closed l -> forall tl d p, match_return (flats l ++ tl) d p = match_return tl d (p + length (flats l)).
Proof.
  induction 1 as [|x l C F IH]; intros tl d p; cbn [flats app length]; [now rewrite Nat.add_0_r|].
  rewrite <- app_assoc, closed_return by exact C. rewrite IH, app_length. f_equal. lia.
Qed.
Lemma cut_return c : cut_off c -> forall d p, match_return (flat c) d p = None.
Proof.
  induction 1 as [f body F|f body c F C IH]; intros d p; rewrite flat_call; cbn [match_return]; rewrite ?app_nil_r.
  - rewrite <- (app_nil_r (flats body)), closeds_return by exact F. reflexivity.
  - rewrite flats_app, closeds_return by exact F. cbn [flats]. rewrite app_nil_r. apply IH.
Qed.
Lemma closed_entry i : closed i -> forall tl d, match_entry (rev (flat i) ++ tl) d = match_entry tl d.
Proof.
  induction i as [b| | |f body r IH] using item_rect'; intros C tl d; [reflexivity|reflexivity|reflexivity|].
  inversion C as [| | |f' b' Fb E1]; subst. rewrite flat_call. cbn [rev]. rewrite rev_app_distr. cbn [rev app match_entry]. rewrite <- app_assoc.
  assert (G : forall tl d, match_entry (rev (flats body) ++ tl) d = match_entry tl d).
  { clear C. induction body as [|x l IHl]; intros tl' d'; cbn [flats rev app]; [reflexivity|].
    inversion IH; subst. inversion Fb; subst. rewrite rev_app_distr, <- app_assoc. rewrite IHl by assumption. now apply H1. }
  rewrite G. cbn [app match_entry]. reflexivity.
Qed.
Lemma closeds_entry l : Forall closed l -> forall tl d, match_entry (rev (flats l) ++ tl) d = match_entry tl d.
Proof.
  induction 1 as [|x l C F IH]; intros tl d; cbn [flats rev app]; [reflexivity|].
  rewrite rev_app_distr, <- app_assoc, IH. now apply closed_entry.
Qed.

(** ** A frame: what was done in a call and what is to come *)
Inductive rest : list item -> list event -> Prop :=
| rs_return todo post : Forall closed todo -> rest todo (EReturn :: post)
| rs_end todo : Forall closed todo -> rest todo []
| rs_cut todo c : Forall closed todo -> cut_off c -> rest (todo ++ [c]) [].
Record frame (evs : trace) (p : nat) (f : N) (done todo : list item) (tail : list event) : Prop := {
  fr_evs : exists pre, evs = pre ++ EEntry f :: flats done ++ flats todo ++ tail /\ length pre = p;
  fr_done : Forall closed done;
  fr_rest : rest todo tail }.
Definition pos (p : nat) (done : list item) : nat := S p + length (flats done).
Lemma pos_snoc p done i : pos p (done ++ [i]) = pos p done + length (flat i).
Proof. unfold pos. rewrite flats_app, app_length. cbn [flats]. rewrite app_nil_r. lia. Qed.
Lemma rest_step i todo tail : rest (i :: todo) tail -> closed i -> rest todo tail.
Proof.
  intros R C. inversion R as [t post F E1 E2|t F E1 E2|t c F Co E1 E2]; subst.
  - constructor. now inversion F.
  - apply rs_end. now inversion F.
  - destruct t as [|x t]; cbn [app] in E1; inversion E1; subst; [inversion C; inversion Co; subst; discriminate|]. apply rs_cut; [now inversion F|exact Co].
Qed.
Lemma rest_cases i todo tail : rest (i :: todo) tail -> closed i \/ cut_off i /\ todo = [] /\ tail = [].
Proof.
  intros R. inversion R as [t post F E1 E2|t F E1 E2|t c F Co E1 E2]; subst; [left; now inversion F|left; now inversion F|].
  destruct t as [|x t]; cbn [app] in E1; inversion E1; subst; [right; auto|left; now inversion F].
Qed.
Lemma fr_step evs p f done i todo tail : frame evs p f done (i :: todo) tail -> closed i -> frame evs p f (done ++ [i]) todo tail.
Proof.
  intros [(pre & E & L) D R] C. split; [|apply Forall_app; auto|now apply rest_step in R].
  exists pre. split; [|exact L]. rewrite E, flats_app. cbn [flats]. rewrite app_nil_r, <- !app_assoc. reflexivity.
Qed.

Lemma skipn_add {A} n m (l : list A) : skipn (n + m) l = skipn m (skipn n l).
Proof. revert l. induction n as [|n IH]; intros l; [reflexivity|]. destruct l as [|x l]; cbn [Nat.add skipn]; [now rewrite skipn_nil|apply IH]. Qed.
Lemma skipn_len {A} (a b : list A) n : length a = n -> skipn n (a ++ b) = b.
Proof. intros <-. rewrite skipn_app, skipn_all, Nat.sub_diag. reflexivity. Qed.
Lemma firstn_len {A} (a b : list A) n : length a = n -> firstn n (a ++ b) = a.
Proof. intros <-. rewrite firstn_app, firstn_all, Nat.sub_diag. cbn [firstn]. apply app_nil_r. Qed.

(** The events after and before the current position. *)
Lemma fr_after evs p f done todo tail : frame evs p f done todo tail -> skipn (pos p done) evs = flats todo ++ tail.
Proof.
  intros [(pre & -> & L) _ _]. replace (pre ++ EEntry f :: flats done ++ flats todo ++ tail) with ((pre ++ EEntry f :: flats done) ++ flats todo ++ tail) by (now rewrite <- app_assoc).
  apply skipn_len. rewrite app_length. cbn [length]. unfold pos. lia.
Qed.
Lemma fr_before evs p f done todo tail : frame evs p f done todo tail -> exists pre, length pre = p /\ rev (firstn (pos p done) evs) = rev (flats done) ++ EEntry f :: rev pre.
Proof.
  intros [(pre & -> & L) _ _]. exists pre. split; [exact L|]. replace (pre ++ EEntry f :: flats done ++ flats todo ++ tail) with ((pre ++ EEntry f :: flats done) ++ flats todo ++ tail) by (now rewrite <- app_assoc).
  rewrite firstn_len by (rewrite app_length; cbn [length]; unfold pos; lia). rewrite rev_app_distr. cbn [rev]. now rewrite <- app_assoc.
Qed.
Lemma fr_entry evs p f done todo tail : frame evs p f done todo tail -> function_entry evs (pos p done) = Some p.
Proof.
  intros F. destruct (fr_before _ _ _ _ _ _ F) as (pre & L & E). unfold function_entry. rewrite E, closeds_entry by apply F. cbn [match_entry]. rewrite rev_length. now f_equal.
Qed.
(** The next event after an item. *)
Lemma fr_next evs p f done i todo tail : frame evs p f done (i :: todo) tail -> length (flat i) = 1 ->
  next_cf evs (pos p done) = skip_to (flats todo ++ tail) (pos p (done ++ [i])).
Proof.
  intros F L. unfold next_cf. rewrite pos_snoc, L. change (S (pos p done)) with (1 + pos p done). rewrite Nat.add_comm. f_equal.
  assert (A := fr_after _ _ _ _ _ _ F). cbn [flats] in A. rewrite <- app_assoc in A.
  rewrite skipn_add, A. now apply skipn_len.
Qed.
Lemma fr_start evs p f todo tail : frame evs p f [] todo tail -> next_cf evs p = skip_to (flats todo ++ tail) (pos p []).
Proof. intros F. unfold next_cf. replace (S p) with (pos p []) by (unfold pos; cbn; lia). now rewrite (fr_after _ _ _ _ _ _ F). Qed.
(** The return of a call in the body. *)
Lemma fr_return_closed evs p f done g body todo tail : frame evs p f done (ICall g body true :: todo) tail -> closed (ICall g body true) ->
  function_return evs (pos p done) = Some (pos (pos p done) body) /\
  next_cf evs (pos (pos p done) body) = skip_to (flats todo ++ tail) (pos p (done ++ [ICall g body true])).
Proof.
  intros F C. assert (A := fr_after _ _ _ _ _ _ F). cbn [flats] in A. rewrite <- app_assoc, flat_call in A. cbn [app] in A. rewrite <- app_assoc in A.
  assert (Cb : Forall closed body) by now inversion C.
  assert (A' : skipn (S (pos p done)) evs = flats body ++ [EReturn] ++ flats todo ++ tail) by (rewrite <- Nat.add_1_r, skipn_add, A; reflexivity).
  split.
  - unfold function_return. rewrite A', closeds_return by exact Cb. reflexivity.
  - unfold next_cf. assert (L : S (pos (pos p done) body) = pos p (done ++ [ICall g body true])).
    { rewrite pos_snoc, flat_call. cbn [length]. rewrite app_length. cbn [length]. unfold pos. lia. }
    rewrite L. f_equal. now apply fr_step in F; [apply fr_after in F|].
Qed.
Lemma fr_return_cut evs p f done c todo tail : frame evs p f done (c :: todo) tail -> cut_off c -> todo = [] -> tail = [] -> function_return evs (pos p done) = None.
Proof.
  intros F C -> ->. assert (A := fr_after _ _ _ _ _ _ F). cbn [flats app] in A. rewrite !app_nil_r in A.
  unfold function_return. rewrite <- Nat.add_1_r, skipn_add, A. assert (X := cut_return c C).
  inversion C; subst; rewrite flat_call in *; cbn [skipn]; cbn [match_return] in X.
  - rewrite app_nil_r in *. rewrite <- (app_nil_r (flats body)), closeds_return by assumption. reflexivity.
  - rewrite app_nil_r in *. rewrite flats_app, closeds_return by assumption. cbn [flats]. rewrite app_nil_r. now apply cut_return.
Qed.
(** The return of the call itself. *)
Lemma own_return evs p f body post : frame evs p f [] body (EReturn :: post) -> function_return evs p = Some (pos p body).
Proof.
  intros F. assert (A := fr_after _ _ _ _ _ _ F). unfold function_return. replace (S p) with (pos p []) by (unfold pos; cbn; lia). rewrite A.
  assert (Fr := fr_rest _ _ _ _ _ _ F). inversion Fr as [t q C E1 E2| |]; subst. rewrite closeds_return by exact C. cbn [match_return]. f_equal. unfold pos. cbn [flats length]. lia.
Qed.
Lemma own_cut evs p f body : frame evs p f [] body [] -> function_return evs p = None.
Proof.
  intros F. assert (A := fr_after _ _ _ _ _ _ F). unfold function_return. replace (S p) with (pos p []) by (unfold pos; cbn; lia). rewrite A, app_nil_r.
  assert (Fr := fr_rest _ _ _ _ _ _ F). inversion Fr as [|t C E1 E2|t c C Co E1 E2]; subst.
  - rewrite <- (app_nil_r (flats body)), closeds_return by exact C. reflexivity.
  - rewrite flats_app, closeds_return by exact C. cbn [flats]. rewrite app_nil_r. now apply cut_return.
Qed.

(** ** Every call of a run is a frame *)
Lemma places_split p body q i : In (q, i) (places p body) <-> exists a b, body = a ++ i :: b /\ q = p + length (flats a).
Proof.
  revert p. induction body as [|x l IH]; intros p; cbn [places In].
  - split; [tauto|]. intros (a & b & E & _). destruct a; discriminate.
  - split.
    + intros [E|I]; [inversion E; subst; exists [], l; split; [reflexivity|cbn; lia]|]. apply IH in I as (a & b & -> & ->).
      exists (x :: a), b. split; [reflexivity|]. cbn [flats]. rewrite app_length. lia.
    + intros ([|y a] & b & E & ->); cbn [app] in E; inversion E; subst; [left; cbn; f_equal; lia|]. right. apply IH. exists a, b. split; [reflexivity|]. cbn [flats]. rewrite app_length. lia.
Qed.
Lemma cut_call c : cut_off c -> exists f body, c = ICall f body false.
Proof. intros []; eauto. Qed.
Lemma occurs_at root p i : run root -> occurs root p i -> exists pre post, flat root = pre ++ flat i ++ post /\ length pre = p /\ (closed i \/ cut_off i /\ post = []).
Proof.
  intros [_ Cl] O. induction O as [|p f body r q i O IH I].
  - exists [], []. rewrite app_nil_r. split; [reflexivity|]. split; [reflexivity|]. tauto.
  - destruct IH as (pre & post & E & L & S). apply places_split in I as (a & b & -> & ->). rewrite flat_call, flats_app in E. cbn [flats] in E.
    exists (pre ++ EEntry f :: flats a), (flats b ++ (if r then [EReturn] else []) ++ post). split; [rewrite E; rewrite <- !app_assoc; cbn [app]; now rewrite <- !app_assoc|].
    split; [rewrite app_length; cbn [length]; lia|]. destruct S as [S|[S ->]].
    + left. inversion S as [| | |f' b' F Ef]; subst. rewrite Forall_app in F. destruct F as [_ F]. now inversion F.
    + inversion S as [f' b' F Ef|f' b' c F Co Ef]; subst.
      * left. rewrite Forall_app in F. destruct F as [_ F]. now inversion F.
      * destruct (exists_last (l := i :: b)) as (b0 & x & Eb); [discriminate|]. rewrite Eb, app_assoc in H. apply app_inj_tail in H as [Ea ->].
        destruct b0 as [|y b0]; cbn [app] in Eb; inversion Eb; subst; [right; auto|]. left. rewrite Forall_app in F. destruct F as [_ F]. now inversion F.
Qed.
Lemma occurs_frame root p f body r : run root -> occurs root p (ICall f body r) -> exists tail, frame (flat root) p f [] body tail /\ (if r then exists post, tail = EReturn :: post else tail = []).
Proof.
  intros Ru O. destruct (occurs_at _ _ _ Ru O) as (pre & post & E & L & S). rewrite flat_call in E.
  exists ((if r then [EReturn] else []) ++ post). split.
  - split; [|constructor|].
    + exists pre. split; [|exact L]. rewrite E. cbn [flats app]. now rewrite <- app_assoc.
    + destruct S as [S|[S ->]].
      * inversion S; subst. now constructor.
      * inversion S; subst; cbn [app]; [now apply rs_end|now apply rs_cut].
  - destruct S as [S|[S ->]]; [inversion S; subst; cbn [app]; eauto|inversion S; reflexivity].
Qed.

(** ** Stepping back *)
Lemma fr_unstep evs p f done i todo tail : frame evs p f (done ++ [i]) todo tail -> closed i /\ frame evs p f done (i :: todo) tail.
Proof.
  intros [(pre & E & L) D R]. apply Forall_app in D as [D C]. assert (C' : closed i) by now inversion C. clear C. split; [exact C'|]. split; [|exact D|].
  - exists pre. split; [|exact L]. rewrite E, flats_app. cbn [flats]. rewrite app_nil_r, <- !app_assoc. reflexivity.
  - inversion R; subst; [constructor; now constructor|apply rs_end; now constructor|]. change (i :: todo0 ++ [c]) with ((i :: todo0) ++ [c]). apply rs_cut; [now constructor|assumption].
Qed.
Lemma fr_steps evs p f l : forall done todo tail, frame evs p f done (l ++ todo) tail -> Forall closed l -> frame evs p f (done ++ l) todo tail.
Proof.
  induction l as [|x l IH]; intros done todo tail F C; [now rewrite app_nil_r|]. inversion C; subst. cbn [app] in F. apply fr_step in F; [|assumption].
  change (x :: l) with ([x] ++ l). rewrite app_assoc. now apply IH.
Qed.
Lemma fr_inner evs p f done g body r todo tail : frame evs p f done (ICall g body r :: todo) tail -> closed (ICall g body r) ->
  frame evs (pos p done) g [] body (EReturn :: flats todo ++ tail).
Proof.
  intros [(pre & E & L) D R] C. assert (r = true) by now inversion C. subst r. assert (Cb : Forall closed body) by now inversion C. clear C. split; [|constructor|now constructor].
  exists (pre ++ EEntry f :: flats done). split; [|rewrite app_length; cbn [length]; unfold pos; lia]. rewrite E. rewrite flats_cons, flat_call. cbn [flats app]. rewrite <- !app_assoc. reflexivity.
Qed.
Lemma fr_prev evs p f done i todo tail : frame evs p f (done ++ [i]) todo tail ->
  prev_cf evs (pos p (done ++ [i])) =
  match i with
  | IBlock b => Some (pos p done, EBlock b)
  | IExtern => Some (pos p done, ECall)
  | IOther => prev_cf evs (pos p done)
  | ICall g body _ => Some (pos (pos p done) body, EReturn)
  end.
Proof.
  intros F. destruct (fr_before _ _ _ _ _ _ F) as (pre & L & E). apply fr_unstep in F as [C F]. destruct (fr_before _ _ _ _ _ _ F) as (pre' & L' & E').
  assert (Q : rev pre = rev pre').
  { destruct F as [(pre0 & Ev & L0) _ _]. assert (firstn p evs = pre0) by (subst evs; now apply firstn_len).
    assert (X : forall d x, rev (firstn (pos p d) evs) = rev (flats d) ++ EEntry f :: rev x -> length x = p -> x = pre0).
    { intros d x Y Lx. apply (f_equal (@rev event)) in Y. rewrite rev_involutive, rev_app_distr in Y. cbn [rev] in Y. rewrite !rev_involutive, <- app_assoc in Y.
      rewrite <- H. replace p with (Nat.min p (pos p d)) at 1 by (unfold pos; lia). rewrite <- firstn_firstn, Y. now rewrite firstn_len. }
    now rewrite (X _ _ E L), (X _ _ E' L'). }
  unfold prev_cf. rewrite E, flats_app, rev_app_distr, <- app_assoc. cbn [flats]. rewrite app_nil_r.
  destruct i as [b| | |g body r]; cbn [flat].
  - cbn [rev app back_to is_cf]. rewrite app_length. cbn [length]. rewrite !rev_length, L. repeat f_equal. unfold pos. lia.
  - cbn [rev app back_to is_cf]. rewrite app_length. cbn [length]. rewrite !rev_length, L. repeat f_equal. unfold pos. lia.
  - cbn [rev app back_to is_cf]. rewrite E', Q. reflexivity.
  - inversion C; subst. fold (flats body). cbn [rev]. change ((fix flats (l : list item) : list event := match l with | [] => [] | x :: t => flat x ++ flats t end) body) with (flats body).
    rewrite rev_app_distr. cbn [rev app back_to is_cf]. rewrite !app_length. cbn [length]. rewrite ?app_length, !rev_length. cbn [length]. rewrite ?rev_length. repeat f_equal. unfold pos. lia.
Qed.
Lemma flat_pos i : 1 <= length (flat i).
Proof. destruct i; cbn [flat length]; lia. Qed.
Lemma fr_len evs p f done todo tail : frame evs p f done todo tail -> length evs = p + 1 + length (flats done) + length (flats todo) + length tail.
Proof. intros [(pre & -> & L) _ _]. rewrite app_length. cbn [length]. rewrite !app_length. lia. Qed.

(** ** The loops *)
Lemma calls_ok evs p f ret todo : forall done tail fuel, frame evs p f done todo tail -> length (flats todo) < fuel ->
  ret = (match tail with [] => None | _ => Some (pos p (done ++ todo)) end) ->
  calls_loop fuel evs ret (skip_to (flats todo ++ tail) (pos p done)) = Ok (calls_at (pos p done) todo).
Proof.
  induction todo as [|i todo IH]; intros done tail fuel F Hf Hr.
  - cbn [flats app calls_at places filter map]. assert (R := fr_rest _ _ _ _ _ _ F). destruct fuel; [cbn in Hf; lia|].
    inversion R as [t post C E1 E2|t C E1 E2|t c C Co E1 E2]; subst; [|reflexivity|destruct t; discriminate].
    cbn [skip_to is_cf calls_loop]. now rewrite app_nil_r, Nat.eqb_refl.
  - assert (R := fr_rest _ _ _ _ _ _ F). assert (Lf := flat_pos i). cbn [flats] in Hf. rewrite app_length in Hf.
    assert (Ne : match ret with Some r => Nat.eqb (pos p done) r | None => false end = false).
    { subst ret. destruct tail; [reflexivity|]. apply Nat.eqb_neq. unfold pos. rewrite flats_app, app_length. cbn [flats]. rewrite app_length. lia. }
    assert (Ca : forall fuel', length (flats todo) < fuel' -> closed i -> calls_loop fuel' evs ret (skip_to (flats todo ++ tail) (pos p (done ++ [i]))) = Ok (calls_at (pos p (done ++ [i])) todo)).
    { intros fuel' H' C. apply IH; [now apply fr_step|exact H'|]. subst ret. now rewrite <- app_assoc. }
    assert (Cat : calls_at (pos p done) (i :: todo) = if is_call i then pos p done :: calls_at (pos p (done ++ [i])) todo else calls_at (pos p (done ++ [i])) todo).
    { unfold calls_at. cbn [places filter snd]. rewrite pos_snoc. destruct (is_call i); reflexivity. }
    rewrite Cat. destruct i as [b| | |g body r]; cbn [is_call].
    + cbn [flats flat app skip_to is_cf]. destruct fuel; [lia|]. cbn [calls_loop]. rewrite Ne, (fr_next _ _ _ _ _ _ _ F eq_refl). apply Ca; [cbn in *; lia|constructor].
    + cbn [flats flat app skip_to is_cf]. destruct fuel; [lia|]. cbn [calls_loop]. rewrite Ne, (fr_next _ _ _ _ _ _ _ F eq_refl). apply Ca; [cbn in *; lia|constructor].
    + cbn [flats flat app skip_to is_cf]. rewrite <- (Ca fuel) by (constructor || (cbn in *; lia)). rewrite pos_snoc. cbn [flat length]. now rewrite Nat.add_1_r.
    + rewrite flats_cons, flat_call. cbn [app skip_to is_cf]. destruct fuel; [lia|]. cbn [calls_loop]. rewrite Ne.
      destruct (rest_cases _ _ _ R) as [C|(C & -> & ->)].
      * assert (r = true) by now inversion C. subst r. destruct (fr_return_closed _ _ _ _ _ _ _ _ F C) as [-> ->].
        rewrite Ca by (assumption || lia). reflexivity.
      * rewrite (fr_return_cut _ _ _ _ _ _ _ F C eq_refl eq_refl). reflexivity.
Qed.

Lemma next_block_ok evs p f todo : forall done tail fuel, frame evs p f done todo tail -> length (flats todo) < fuel -> no_extern todo ->
  next_block_loop fuel evs (Some p) (skip_to (flats todo ++ tail) (pos p done)) = Ok (hd_error (blocks_at (pos p done) todo)).
Proof.
  induction todo as [|i todo IH]; intros done tail fuel F Hf Ne.
  - cbn [flats app blocks_at places filter map hd_error]. assert (R := fr_rest _ _ _ _ _ _ F). destruct fuel; [cbn in Hf; lia|].
    inversion R as [t post C E1 E2|t C E1 E2|t c C Co E1 E2]; subst; [reflexivity|reflexivity|destruct t; discriminate].
  - assert (R := fr_rest _ _ _ _ _ _ F). assert (Lf := flat_pos i). cbn [flats] in Hf. rewrite app_length in Hf.
    assert (Ne' : no_extern todo) by (intros I; apply Ne; now right).
    assert (Cat : blocks_at (pos p done) (i :: todo) = if is_block i then pos p done :: blocks_at (pos p (done ++ [i])) todo else blocks_at (pos p (done ++ [i])) todo).
    { unfold blocks_at. cbn [places filter snd]. rewrite pos_snoc. destruct (is_block i); reflexivity. }
    rewrite Cat. destruct i as [b| | |g body r]; cbn [is_block].
    + cbn [flats flat app skip_to is_cf]. destruct fuel; [lia|]. cbn [next_block_loop]. rewrite (fr_entry _ _ _ _ _ _ F). cbn [same_entry hd_error]. now rewrite Nat.eqb_refl.
    + exfalso. apply Ne. now left.
    + cbn [flats flat app skip_to is_cf]. assert (L : S (pos p done) = pos p (done ++ [IOther])) by (rewrite pos_snoc; cbn [flat length]; lia). rewrite L. apply IH; [apply fr_step; [exact F|constructor]|cbn in *; lia|exact Ne'].
    + rewrite flats_cons, flat_call. cbn [app skip_to is_cf]. destruct fuel; [lia|]. cbn [next_block_loop].
      destruct (rest_cases _ _ _ R) as [C|(C & -> & ->)].
      * assert (r = true) by now inversion C. subst r. destruct (fr_return_closed _ _ _ _ _ _ _ _ F C) as [-> ->]. apply IH; [now apply fr_step|lia|exact Ne'].
      * rewrite (fr_return_cut _ _ _ _ _ _ _ F C eq_refl eq_refl). reflexivity.
Qed.
Lemma blocks_ok evs p f todo : forall done tail fuel, frame evs p f done todo tail -> length (flats todo) < fuel -> no_extern todo ->
  blocks_loop fuel evs (hd_error (blocks_at (pos p done) todo)) = Ok (blocks_at (pos p done) todo).
Proof.
  induction todo as [|i todo IH]; intros done tail fuel F Hf Ne.
  - destruct fuel; [cbn in Hf; lia|]. reflexivity.
  - assert (R := fr_rest _ _ _ _ _ _ F). assert (Lf := flat_pos i). cbn [flats] in Hf. rewrite app_length in Hf.
    assert (Ne' : no_extern todo) by (intros I; apply Ne; now right).
    assert (Cat : blocks_at (pos p done) (i :: todo) = if is_block i then pos p done :: blocks_at (pos p (done ++ [i])) todo else blocks_at (pos p (done ++ [i])) todo).
    { unfold blocks_at. cbn [places filter snd]. rewrite pos_snoc. destruct (is_block i); reflexivity. }
    rewrite Cat. destruct (rest_cases _ _ _ R) as [C|(C & -> & ->)].
    + destruct i as [b| | |g body r]; cbn [is_block]; try (apply (IH _ tail); [now apply fr_step|lia|exact Ne']).
      cbn [hd_error]. destruct fuel; [lia|]. cbn [blocks_loop]. unfold next_block. rewrite (fr_entry _ _ _ _ _ _ F), (fr_next _ _ _ _ _ _ _ F eq_refl).
      assert (Le := fr_len _ _ _ _ _ _ F). cbn [flats] in Le. rewrite app_length in Le.
      rewrite (next_block_ok evs p f todo _ tail) by (first [exact Ne' | now apply fr_step | lia]). cbn [bind].
      rewrite (IH _ tail) by (first [exact Ne' | now apply fr_step | lia]). reflexivity.
    + destruct fuel; [lia|]. apply cut_call in C as (g & body & ->). reflexivity.
Qed.
Lemma entrypoint_ok evs p f body tail : frame evs p f [] body tail -> starts_with_block body -> entrypoint evs p = Ok (hd_error (blocks_at (pos p []) body)).
Proof.
  intros F Sb. unfold entrypoint. rewrite (fr_start _ _ _ _ _ F).
  assert (G : forall m l, body = m ++ l -> forallb is_silent m = true -> Forall closed m ->
    match skip_to (flats l ++ tail) (pos p m) with Some (j, EBlock _) => if same_entry (function_entry evs j) (Some p) then Ok (Some j) else Exit | _ => Ok None end = Ok (hd_error (blocks_at (pos p m) l))).
  { intros m l. revert m. induction l as [|i l IH]; intros m E Si Cm.
    - assert (R := fr_rest _ _ _ _ _ _ F). cbn [flats app blocks_at places filter map hd_error]. inversion R; subst; reflexivity.
    - assert (Fm : frame evs p f m (i :: l) tail) by (rewrite E in F; now apply fr_steps in F).
      destruct (is_silent i) eqn:S; [|assert (B := Sb m i l E Si S)]; destruct i as [b| | |g bd r]; cbn [is_silent is_block] in *; try discriminate.
      + cbn [flats flat app skip_to is_cf]. replace (Datatypes.S (pos p m)) with (pos p (m ++ [IOther])) by (rewrite pos_snoc; cbn [flat length]; lia).
        rewrite IH; [|now rewrite <- app_assoc|rewrite forallb_app, Si; reflexivity|apply Forall_app; split; [exact Cm|repeat constructor]].
        unfold blocks_at. cbn [places filter snd is_block]. now rewrite pos_snoc.
      + cbn [flats flat app skip_to is_cf]. rewrite (fr_entry _ _ _ _ _ _ Fm). cbn [same_entry]. rewrite Nat.eqb_refl. reflexivity. }
  apply (G [] body); auto.
Qed.

(** ** What the iterator yields *)
Definition head_call (o : option place) : list nat := match o with Some (j, EEntry _) => [j] | _ => [] end.
Lemma head_none evs p f todo : forall done tail, frame evs p f done todo tail ->
  (forall m j r, todo = m ++ j :: r -> forallb is_silent m = true -> is_call j = false) -> head_call (skip_to (flats todo ++ tail) (pos p done)) = [].
Proof.
  induction todo as [|i todo IH]; intros done tail F H.
  - assert (R := fr_rest _ _ _ _ _ _ F). inversion R as [t post C E1 E2|t C E1 E2|t c C Co E1 E2]; subst; [reflexivity|reflexivity|destruct t; discriminate].
  - destruct i as [b| | |g body r]; [reflexivity|reflexivity| |].
    + cbn [flats flat app skip_to is_cf]. replace (S (pos p done)) with (pos p (done ++ [IOther])) by (rewrite pos_snoc; cbn [flat length]; lia).
      apply IH; [apply fr_step; [exact F|constructor]|]. intros m j r -> Si. apply (H (IOther :: m) j r eq_refl). exact Si.
    + exfalso. specialize (H [] (ICall g body r) todo eq_refl eq_refl). discriminate H.
Qed.
Definition called_by (evs : trace) (b : nat) : list nat := b :: match called_function evs b with Some c => [c] | None => [] end.
Lemma iter_ok evs p f todo : forall done tail, frame evs p f done todo tail -> no_extern todo -> one_call_per_block todo ->
  head_call (skip_to (flats todo ++ tail) (pos p done)) ++ flat_map (called_by evs) (blocks_at (pos p done) todo) = items_at (pos p done) todo.
Proof.
  induction todo as [|i todo IH]; intros done tail F Ne Oc.
  - assert (R := fr_rest _ _ _ _ _ _ F). inversion R as [t post C E1 E2|t C E1 E2|t c C Co E1 E2]; subst; [reflexivity|reflexivity|destruct t; discriminate].
  - assert (R := fr_rest _ _ _ _ _ _ F). assert (Ne' : no_extern todo) by (intros I; apply Ne; now right).
    assert (Oc' : one_call_per_block todo) by (intros a x m y r ->; exact (Oc (i :: a) x m y r eq_refl)).
    assert (Bl : blocks_at (pos p done) (i :: todo) = if is_block i then pos p done :: blocks_at (pos p (done ++ [i])) todo else blocks_at (pos p (done ++ [i])) todo).
    { unfold blocks_at. cbn [places filter snd]. rewrite pos_snoc. destruct (is_block i); reflexivity. }
    assert (It : items_at (pos p done) (i :: todo) = if is_block i || is_call i then pos p done :: items_at (pos p (done ++ [i])) todo else items_at (pos p (done ++ [i])) todo).
    { unfold items_at. cbn [places filter snd]. rewrite pos_snoc. destruct (is_block i || is_call i); reflexivity. }
    rewrite Bl, It. clear Bl It. destruct i as [b| | |g body r]; cbn [is_block is_call orb].
    + cbn [flats flat app skip_to is_cf head_call flat_map]. unfold called_by at 1, called_function. rewrite (fr_next _ _ _ _ _ _ _ F eq_refl).
      rewrite <- (IH (done ++ [IBlock b]) tail) by (first [assumption | apply fr_step; [exact F|constructor]]). cbn [app]. f_equal. f_equal.
      destruct (skip_to (flats todo ++ tail) (pos p (done ++ [IBlock b]))) as [[j []]|]; reflexivity.
    + exfalso. apply Ne. now left.
    + rewrite <- (IH (done ++ [IOther]) tail) by (first [assumption | apply fr_step; [exact F|constructor]]). cbn [flats flat app skip_to is_cf].
      now replace (S (pos p done)) with (pos p (done ++ [IOther])) by (rewrite pos_snoc; cbn [flat length]; lia).
    + rewrite flats_cons, flat_call. cbn [app skip_to is_cf head_call app]. f_equal. destruct (rest_cases _ _ _ R) as [C|(C & -> & ->)]; [|reflexivity].
      rewrite <- (IH (done ++ [ICall g body r]) tail) by (first [assumption | now apply fr_step]).
      rewrite (head_none evs p f todo (done ++ [ICall g body r]) tail); [reflexivity|now apply fr_step|]. intros m j r' -> Si. exact (Oc [] _ m j r' eq_refl Si eq_refl).
Qed.

(** ** Looking back *)
Lemma fr_done_entry evs p f done g body r todo tail : frame evs p f done (ICall g body r :: todo) tail -> closed (ICall g body r) ->
  function_entry evs (pos (pos p done) body) = Some (pos p done).
Proof.
  intros F C. assert (I := fr_inner _ _ _ _ _ _ _ _ _ F C). assert (Cb : Forall closed body) by now inversion C.
  rewrite <- (app_nil_r body) in I. apply fr_steps in I; [|exact Cb]. cbn [app] in I. exact (fr_entry _ _ _ _ _ _ I).
Qed.
Lemma caller_ok evs p f a b m : forall todo tail fuel, frame evs p f (a ++ IBlock b :: m) todo tail -> length (flats m) < fuel -> forallb (fun i => negb (is_block i)) m = true ->
  caller_loop fuel evs (prev_cf evs (pos p (a ++ IBlock b :: m))) = Ok (Some (pos p a)).
Proof.
  induction m as [|i m IH] using rev_ind; intros todo tail fuel F Hf Nb.
  - change (a ++ [IBlock b]) with (a ++ [IBlock b]) in *. rewrite (fr_prev _ _ _ _ _ _ _ F). destruct fuel; [cbn in Hf; lia|]. reflexivity.
  - assert (E : a ++ IBlock b :: m ++ [i] = (a ++ IBlock b :: m) ++ [i]) by (now rewrite <- app_assoc). rewrite E in *.
    rewrite (fr_prev _ _ _ _ _ _ _ F). apply fr_unstep in F as [C F]. rewrite flats_app, app_length in Hf. cbn [flats] in Hf. rewrite app_nil_r in Hf. assert (Lf := flat_pos i).
    rewrite forallb_app in Nb. apply andb_true_iff in Nb as [Nb Ni]. cbn [forallb] in Ni. rewrite andb_true_r in Ni.
    destruct i as [b'| | |g body r]; [discriminate Ni| | |].
    + destruct fuel; [lia|]. cbn [caller_loop]. apply (IH _ _ _ F); [cbn in *; lia|exact Nb].
    + apply (IH _ _ _ F); [lia|exact Nb].
    + destruct fuel; [lia|]. cbn [caller_loop]. rewrite (fr_done_entry _ _ _ _ _ _ _ _ _ F C). apply (IH _ _ _ F); [lia|exact Nb].
Qed.
Definition entries_of (b : N) (l : list item) : nat := length (filter (fun i => match i with IBlock b' => N.eqb b' b | _ => false end) l).
Lemma count_ok evs p f b done : forall todo tail fuel, frame evs p f done todo tail -> length (flats done) < fuel ->
  count_loop fuel evs b (Some p) (prev_cf evs (pos p done)) = Ok (entries_of b done).
Proof.
  induction done as [|i done IH] using rev_ind; intros todo tail fuel F Hf.
  - destruct (fr_before _ _ _ _ _ _ F) as (pre & L & E). unfold prev_cf. rewrite E. cbn [flats rev app back_to is_cf]. destruct fuel; [cbn in Hf; lia|]. cbn [count_loop same_entry].
    rewrite rev_length, L, Nat.eqb_refl. reflexivity.
  - rewrite (fr_prev _ _ _ _ _ _ _ F). apply fr_unstep in F as [C F]. rewrite flats_app, app_length in Hf. cbn [flats] in Hf. rewrite app_nil_r in Hf. assert (Lf := flat_pos i).
    assert (Ne : Nat.eqb (pos p done) p = false) by (apply Nat.eqb_neq; unfold pos; lia).
    unfold entries_of. rewrite filter_app, app_length. fold (entries_of b done).
    destruct i as [b'| | |g body r]; cbn [filter length].
    + destruct fuel; [lia|]. cbn [count_loop same_entry]. rewrite Ne, (IH _ _ _ F) by (cbn in *; lia). cbn [bind]. destruct (N.eqb b' b); cbn [length]; f_equal; lia.
    + destruct fuel; [lia|]. cbn [count_loop same_entry]. rewrite Ne, (IH _ _ _ F) by (cbn in *; lia). f_equal; lia.
    + rewrite (IH _ _ _ F) by (cbn in *; lia). f_equal; lia.
    + destruct fuel; [lia|]. cbn [count_loop same_entry]. assert (Ne2 : Nat.eqb (pos (pos p done) body) p = false) by (apply Nat.eqb_neq; unfold pos; lia). rewrite Ne2, (fr_done_entry _ _ _ _ _ _ _ _ _ F C), (IH _ _ _ F) by (cbn in *; lia).
      f_equal; lia.
Qed.
Lemma skip_silent m : forallb is_silent m = true -> forall tl q, skip_to (flats m ++ tl) q = skip_to tl (q + length (flats m)).
Proof.
  induction m as [|i m IH]; intros S tl q; [cbn; now rewrite Nat.add_0_r|]. cbn [forallb] in S. apply andb_true_iff in S as [Si Sm]. destruct i; try discriminate.
  cbn [flats flat app skip_to is_cf length]. rewrite IH by exact Sm. f_equal. lia.
Qed.

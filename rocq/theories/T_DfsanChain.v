(** C131: the history of a tainted value. *)
From Coq Require Import NArith Arith List Bool Lia ZArith ZifyN ZifyBool.
From Verif Require Import M_Base M_DfsanChain.
Import ListNotations.
Open Scope N_scope.

(** Specification.  The stacks found by following an origin, the latest first. *)
Inductive history (d : depot) : N -> list N -> Prop :=
| history_none : history d 0 []
| history_some : forall o stack prev l, o <> 0 -> next_chained d o = Some (stack, prev) ->
    history d prev l -> history d o (stack :: l).
(** The origins made so far: none at first, then those of stores of values with such origins. *)
Inductive made (f : limits) : depot -> list N -> Prop :=
| made_start : made f depot0 [0]
| made_store : forall d os prev stack d' o, made f d os -> In prev os ->
    create_chained f d prev stack = Ok (d', o) -> made f d' (o :: os).

Lemma history_fun d o l : history d o l -> forall l', history d o l' -> l = l'.
Proof.
  induction 1 as [|o s p l NZ E H IH]; intros l' H'; inversion H'; subst; try congruence.
  rewrite E in *. match goal with K : Some _ = Some _ |- _ => injection K as ? ?; subst end. f_equal. now apply IH.
Qed.

Lemma next_more d es u o x : (exists t, es = entries d ++ t) -> next_chained d o = Some x ->
  next_chained (mkDepot es u) o = Some x.
Proof.
  intros (t & ->) H. unfold next_chained in *. destruct (o =? 0); [discriminate|]. cbn [entries].
  rewrite nth_error_app1; [exact H|]. apply nth_error_Some. congruence.
Qed.
Lemma history_more d es u o l : (exists t, es = entries d ++ t) -> history d o l -> history (mkDepot es u) o l.
Proof.
  intros T. induction 1 as [|o s p l NZ E H IH]; [constructor|].
  apply (history_some _ _ _ p); [exact NZ|now apply (next_more d)|exact IH].
Qed.

Lemma position_spec e l : forall i k, position e l i = Some k -> i <= k /\ nth_error l (N.to_nat (k - i)) = Some e.
Proof.
  induction l as [|x l IH]; intros i k H; cbn [position] in H; [discriminate|].
  destruct (entry_eqb x e) eqn:E.
  - injection H as <-. split; [lia|]. rewrite N.sub_diag. cbn. f_equal.
    unfold entry_eqb in E. destruct x, e. cbn in *. f_equal; lia.
  - destruct (IH _ _ H) as [A B]. split; [lia|]. replace (N.to_nat (k - i)) with (S (N.to_nat (k - (i + 1)))) by lia. exact B.
Qed.
Lemma put_spec d stack prev id ins es : depot_put d stack prev = (id, ins, es) ->
  1 <= id /\ (exists t, es = entries d ++ t) /\ nth_error es (N.to_nat (id - 1)) = Some (stack, prev).
Proof.
  unfold depot_put. destruct (position _ _ 1) as [i|] eqn:E; intros H; injection H as <- <- <-.
  - apply position_spec in E. destruct E. repeat split; [lia|exists []; now rewrite app_nil_r|assumption].
  - unfold len. repeat split; [lia|now exists [(stack, prev)]|].
    replace (N.to_nat (N.of_nat (length (entries d)) + 1 - 1)) with (length (entries d)) by lia.
    rewrite nth_error_app2 by lia. now rewrite Nat.sub_diag.
Qed.
Lemma raw_parts depth id : id < id_bound -> depth_of (depth * id_bound + id) = depth /\ id_of (depth * id_bound + id) = id.
Proof.
  intros L. unfold depth_of, id_of. split.
  - rewrite N.div_add_l by discriminate. rewrite N.div_small by exact L. lia.
  - rewrite N.add_comm, N.mod_add by discriminate. now apply N.mod_small.
Qed.

(** A store either leaves the origin and the depot as they are, or adds its stack to the
    history; the former happens exactly at the limits or for a stack that cannot be kept.  No
    history is changed. *)
Lemma store_spec f d prev stack d' o l : history d prev l ->
  (0 < history_size f -> prev <> 0 -> depth_of prev + 1 = N.of_nat (length l)) ->
  create_chained f d prev stack = Ok (d', o) ->
  ((0 < history_size f /\ (history_size f <= N.of_nat (length l) \/ 16 <= N.of_nat (length l))
    \/ stack = 0 \/ 0 < per_stack f < uses d stack) /\ o = prev /\ d' = d \/
   ~ (0 < history_size f /\ (history_size f <= N.of_nat (length l) \/ 16 <= N.of_nat (length l))
    \/ stack = 0 \/ 0 < per_stack f < uses d stack) /\ history d' o (stack :: l) /\ o <> 0 /\
     (0 < history_size f -> depth_of o + 1 = N.of_nat (length (stack :: l)))) /\
  (forall q k, history d q k -> history d' q k).
Proof.
  intros H D E. unfold create_chained in E.
  set (before := if prev =? 0 then 0 else depth_of prev + 1) in *.
  assert (B : 0 < history_size f -> before = N.of_nat (length l)).
  { intros P. unfold before. destruct (prev =? 0) eqn:Z; [|apply D; abstract lia].
    apply N.eqb_eq in Z. subst. inversion H; subst; [reflexivity|congruence]. }
  clearbody before.
  destruct ((0 <? history_size f) && _) eqn:C1.
  { injection E as <- <-. split; [|auto]. left. split; [left|auto]. specialize (B ltac:(abstract lia)). abstract lia. }
  destruct (stack =? 0) eqn:C2.
  { injection E as <- <-. split; [|auto]. left. split; [right; left; abstract lia|auto]. }
  destruct ((0 <? per_stack f) && _) eqn:C3.
  { injection E as <- <-. split; [|auto]. left. split; [right; right; abstract lia|auto]. }
  destruct (depot_put d stack prev) as [[id ins] es] eqn:P.
  destruct (put_spec _ _ _ _ _ _ P) as (I1 & T & N1).
  destruct (id_bound <=? id) eqn:C4; [discriminate|]. apply N.leb_gt in C4.
  set (depth := if 0 <? history_size f then before else if prev =? 0 then 15 else depth_of prev) in *.
  assert (DP : 0 < history_size f -> depth = before)
    by (intros P0; unfold depth; replace (0 <? history_size f) with true by (symmetry; now apply N.ltb_lt); reflexivity).
  clearbody depth.
  set (u := if ins && (0 <? per_stack f) then _ else _) in *. clearbody u.
  assert (d' = mkDepot es u /\ o = depth * id_bound + id) as [-> ->] by (split; abstract congruence). clear E.
  destruct (raw_parts depth id C4) as [R1 R2].
  split; [right|intros q k Q; now apply (history_more d)].
  split.
  { intros X. destruct X as [[P0 X]|[X|X]]; [|abstract lia|abstract lia]. specialize (B P0). abstract lia. }
  assert (NZ : depth * id_bound + id <> 0) by (intros X; apply N.eq_add_0 in X; destruct X as [_ X]; rewrite X in I1; now apply I1).
  split; [|split; [exact NZ|]].
  - apply (history_some _ _ _ prev); [exact NZ| |now apply (history_more d)].
    unfold next_chained. apply N.eqb_neq in NZ. rewrite NZ, R2. exact N1.
  - intros P0. rewrite R1, (DP P0), (B P0). cbn [length]. abstract lia.
Qed.

Lemma made_known f d os : made f d os -> forall o, In o os -> exists l, history d o l /\
  (0 < history_size f -> (o <> 0 -> depth_of o + 1 = N.of_nat (length l)) /\
     N.of_nat (length l) <= history_size f /\ N.of_nat (length l) <= 16).
Proof.
  induction 1 as [|d os prev stack d' o M IH I E]; intros q Q.
  - destruct Q as [<-|[]]. exists []. split; [constructor|]. intros P. cbn. split; [congruence|lia].
  - destruct (IH prev I) as (l & H & K).
    destruct (store_spec f d prev stack d' o l H ltac:(intros P; apply (K P)) E) as [S T].
    destruct Q as [<-|Q].
    + destruct S as [(_ & -> & ->)|(L & H' & NZ & D)]; [now exists l|].
      exists (stack :: l). split; [exact H'|]. intros P. destruct (K P) as (_ & K1 & K2). split; [auto|].
      cbn [length]. assert (~ (history_size f <= N.of_nat (length l) \/ 16 <= N.of_nat (length l))) by (intros X; apply L; left; auto). lia.
    + destruct (IH q Q) as (k & Hk & Kk). exists k. split; [now apply T|exact Kk].
Qed.

(** Every origin ever made has exactly one history, which ends, and is within the limits. *)
Theorem C131_histories : forall f d os o, made f d os -> In o os ->
  exists l, history d o l /\ (forall l', history d o l' -> l' = l) /\
    (0 < history_size f -> N.of_nat (length l) <= N.min (history_size f) 16).
Proof.
  intros f d os o M I. destruct (made_known f d os M o I) as (l & H & K). exists l. split; [exact H|].
  split; [intros l' H'; symmetry; exact (history_fun _ _ _ H _ H')|]. intros P. destruct (K P) as (_ & A & B). lia.
Qed.
Print Assumptions C131_histories.

(** A store of a value adds the stack of the store to the value's history, unless the history
    is full, the stack has been used too often or cannot be kept: then the value keeps its
    history.  All other histories stay as they are. *)
Theorem C131_store : forall f d os prev stack d' o l, made f d os -> In prev os -> history d prev l ->
  create_chained f d prev stack = Ok (d', o) ->
  let full := 0 < history_size f /\ N.min (history_size f) 16 <= N.of_nat (length l) in
  let refused := full \/ stack = 0 \/ 0 < per_stack f < uses d stack in
  (refused -> o = prev /\ d' = d) /\ (~ refused -> history d' o (stack :: l)) /\
  (forall q k, history d q k -> history d' q k).
Proof.
  intros f d os prev stack d' o l M I H E full refused.
  destruct (made_known f d os M prev I) as (l' & H' & K). rewrite (history_fun _ _ _ H' _ H) in K.
  destruct (store_spec f d prev stack d' o l H ltac:(intros P; apply (K P)) E) as [S T].
  split; [|split; [|exact T]].
  - intros R. destruct S as [(_ & A & B)|(L & _)]; [auto|]. exfalso. apply L. unfold refused, full in R.
    destruct R as [[A B]|R]; [left; split; [exact A|lia]|now right].
  - intros R. destruct S as [(L & _)|(_ & A & _)]; [|exact A]. exfalso. apply R. unfold refused, full.
    destruct L as [[A B]|L]; [left; split; [exact A|lia]|now right].
Qed.
Print Assumptions C131_store.

(** A store of a value never fails while fewer than 2^28 - 1 entries are kept, and adds one at most. *)
Theorem C131_total : forall f d prev stack, N.of_nat (length (entries d)) + 1 < 2 ^ 28 ->
  exists d' o, create_chained f d prev stack = Ok (d', o) /\ (length (entries d') <= S (length (entries d)))%nat.
Proof.
  intros f d prev stack L. change (2 ^ 28) with id_bound in L. unfold create_chained.
  destruct (_ && _); [eauto|]. destruct (stack =? 0); [eauto|]. destruct (_ && _); [eauto|].
  destruct (depot_put d stack prev) as [[id ins] es] eqn:E.
  assert (K : id < id_bound /\ (length es <= S (length (entries d)))%nat).
  { unfold depot_put in E. destruct (position _ _ 1) as [i|] eqn:P; injection E as <- _ <-.
    - apply position_spec in P. destruct P as [A B]. assert (N.to_nat (i - 1) < length (entries d))%nat by (apply nth_error_Some; congruence). split; lia.
    - unfold len. rewrite app_length. cbn [length]. split; lia. }
  destruct K as [K K']. apply N.leb_gt in K. rewrite K. do 2 eexists. split; [reflexivity|exact K'].
Qed.
Print Assumptions C131_total.

(** With a limit per stack, the uses of a stack are the origins kept for it, and there is at
    most one more of them than the limit. *)
Theorem C131_uses : forall f d os stack, made f d os -> 0 < per_stack f ->
  uses d stack = N.of_nat (length (filter (fun e => fst e =? stack) (entries d))) /\ uses d stack <= per_stack f + 1.
Proof.
  intros f d os stack M P. induction M as [|d os prev st d' o M IH I E]; [split; [reflexivity|cbn; lia]|].
  unfold create_chained in E. set (c1 := _ && _) in E at 1. destruct c1; [injection E as <- _; exact IH|].
  destruct (st =? 0); [injection E as <- _; exact IH|].
  destruct ((0 <? per_stack f) && (per_stack f <? uses d st)) eqn:C3; [injection E as <- _; exact IH|].
  unfold depot_put in E. destruct (position (st, prev) (entries d) 1) as [i|]; destruct (id_bound <=? _); try discriminate E.
  - assert (D : d' = mkDepot (entries d) (uses d)) by (cbn [andb] in E; congruence). rewrite D. exact IH.
  - apply N.ltb_lt in P. cbn [andb] in E. rewrite P in E. apply N.ltb_lt in P.
    assert (D : d' = mkDepot (entries d ++ [(st, prev)]) (fun s => if s =? st then uses d s + 1 else uses d s)) by congruence.
    rewrite D. cbn [entries uses]. rewrite filter_app, app_length. cbn [filter fst]. destruct IH as [A B].
    destruct (N.eqb_spec stack st) as [->|NE].
    + rewrite N.eqb_refl. cbn [length]. split; lia.
    + replace (st =? stack) with false by (symmetry; apply N.eqb_neq; congruence). cbn [length]. split; lia.
Qed.
Print Assumptions C131_uses.
Definition case_u : depot := mkDepot [(7, 0)] (fun s => if s =? 7 then 0 + 1 else 0).
Example C131_uses_case : made (mkLimits 2 1) case_u [1; 0] /\ uses case_u 7 = 1 /\ uses case_u 8 = 0.
Proof.
  split; [|split; reflexivity]. apply (made_store _ depot0 _ 0 7); [constructor|now left|reflexivity].
Qed.

(** The initial origin of a value is the one whose history is just the first stack. *)
Theorem C131_init : forall f d os o l, made f d os -> In o os -> o <> 0 -> history d o l ->
  exists fuel first rest init, l = rest ++ [first] /\
    init_origin fuel d o o = Ok init /\ history d init [first].
Proof.
  intros f d os o l _ _ NZ H. exists (S (length l)). generalize o at 2. intros x.
  revert x NZ. induction H as [|o s p l NZ E H IH]; intros x Z; [congruence|].
  cbn [init_origin]. apply N.eqb_neq in NZ. rewrite NZ, E. apply N.eqb_neq in NZ.
  destruct (N.eq_dec p 0) as [->|PZ].
  - inversion H; subst; [|congruence]. exists s, [], o. split; [reflexivity|]. split; [reflexivity|].
    now apply (history_some _ _ _ 0).
  - destruct (IH o PZ) as (first & rest & init & -> & I & F). exists first, (s :: rest), init. auto.
Qed.
Print Assumptions C131_init.

(** Storing a value at three places with room for two. *)
Definition case_1 : depot := mkDepot [(7, 0)] (uses depot0).
Definition case_2 : depot := mkDepot [(7, 0); (8, 1)] (uses depot0).
Definition case_o : N := 0x10000002.
Example C131_case : let f := mkLimits 2 0 in
  create_chained f depot0 0 7 = Ok (case_1, 1) /\ create_chained f case_1 1 8 = Ok (case_2, case_o) /\ create_chained f case_2 case_o 9 = Ok (case_2, case_o) /\ made f case_2 [case_o; case_o; 1; 0] /\ history case_2 case_o [8; 7] /\ init_origin 5 case_2 case_o case_o = Ok 1.
Proof.
  cbn zeta.
  assert (E1 : create_chained (mkLimits 2 0) depot0 0 7 = Ok (case_1, 1)) by reflexivity.
  assert (E2 : create_chained (mkLimits 2 0) case_1 1 8 = Ok (case_2, case_o)) by reflexivity.
  assert (E3 : create_chained (mkLimits 2 0) case_2 case_o 9 = Ok (case_2, case_o)) by reflexivity.
  repeat (split; [assumption|]). split; [|split; [|reflexivity]].
  - apply (made_store _ case_2 _ case_o 9); [|now left|exact E3].
    apply (made_store _ case_1 _ 1 8); [|now left|exact E2].
    apply (made_store _ depot0 _ 0 7); [constructor|now left|exact E1].
  - apply (history_some _ _ 8 1); [discriminate|reflexivity|].
    apply (history_some _ _ 7 0); [discriminate|reflexivity|constructor].
Qed.

(** More than sixteen stores are not kept, however large the limit is set. *)
Theorem C131_sixteen : forall f d os o l, made f d os -> In o os -> history d o l ->
  0 < history_size f -> (length l <= 16)%nat.
Proof.
  intros f d os o l M I H P. destruct (C131_histories f d os o M I) as (l' & _ & U & K).
  rewrite (U l H). specialize (K P). lia.
Qed.
Print Assumptions C131_sixteen.

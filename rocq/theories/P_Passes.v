(** The passes produce related modules. *)
From Coq Require Import NArith Arith List Bool Lia.
From Verif Require Import M_Base M_Functions M_Ir M_Passes S_Passes P_Base P_Ir.
Import ListNotations.
Open Scope N_scope.

(** ** Widths *)
Lemma sext_mod from to v : sext_or_trunc from to (v mod 2 ^ from) = sext_or_trunc from to v.
Proof. unfold sext_or_trunc. rewrite N.mod_mod; [reflexivity|]. apply N.pow_nonzero. lia. Qed.
Lemma sext_back w v : 1 <= w <= 64 -> sext_or_trunc 64 w (sext_or_trunc w 64 v) = v mod 2 ^ w.
Proof.
  intros [L1 L2]. unfold sext_or_trunc at 1. rewrite (proj2 (N.leb_le w 64) L2).
  assert (Z : 2 ^ w <> 0) by (apply N.pow_nonzero; lia).
  assert (X := N.mod_lt v (2 ^ w) Z). unfold sext_or_trunc.
  assert (E64 : 2 ^ 64 = 2 ^ (64 - w) * 2 ^ w) by (rewrite <- N.pow_add_r; f_equal; lia).
  assert (P : 1 <= 2 ^ (64 - w)) by (pose proof (N.pow_nonzero 2 (64 - w)); lia).
  assert (Le : 2 ^ w <= 2 ^ 64) by (rewrite E64; nia).
  assert (Ym : forall y, y < 2 ^ 64 -> y mod 2 ^ 64 mod 2 ^ w = y mod 2 ^ w) by (intros y Ly; now rewrite (N.mod_small y (2 ^ 64) Ly)).
  destruct (N.leb_spec 64 w) as [L3|L3].
  - assert (w = 64) by lia. subst w. rewrite Ym; rewrite N.mod_mod by lia; [now rewrite N.mod_mod by lia|exact X].
  - destruct (v mod 2 ^ w <? 2 ^ (w - 1)).
    + rewrite Ym by lia. now rewrite N.mod_mod by exact Z.
    + rewrite Ym by lia. replace (v mod 2 ^ w + (2 ^ 64 - 2 ^ w)) with (v mod 2 ^ w + (2 ^ (64 - w) - 1) * 2 ^ w).
      * rewrite N.mod_add by exact Z. now apply N.mod_mod.
      * rewrite E64. rewrite N.mul_sub_distr_r. lia.
Qed.

Section Tcf.
  Context {W : Type}.
  Notation instr := (instr W).
  Notation block := (block W).
  Notation func := (func W).
  Notation modul := (modul W).
  Variable answer : list (rtcall val) -> rtcall val -> val.
  Hypothesis Hans : fair answer.
  Notation pre_exec := (pre_exec answer).

  Lemma route_ok k fid o w (e : regs) h : 1 <= w <= 64 -> o_bound o <= k ->
    exists e2, pre_exec e h (fst (fst (tcf_route k fid o w : list instr * operand * N))) =
        Some (e2, [RtTainted (widened 64 (w, at_width w (eval e o))) fid]) /\
      agree k e e2 /\ e2 (k + 2) = at_width w (eval e o).
  Proof.
    intros Lw Lo. cbn [tcf_route fst snd P_Ir.pre_exec rt_map eval set_opt].
    eexists. split.
    - f_equal. f_equal. f_equal. f_equal. unfold widened, at_width, set. cbn [fst snd]. rewrite N.eqb_refl, sext_mod. reflexivity.
    - split.
      + intros r L. unfold set. destruct (N.eqb_spec r (k + 2)); [lia|]. destruct (N.eqb_spec r (k + 1)); [lia|]. destruct (N.eqb_spec r k); [lia|reflexivity].
      + unfold set at 1. rewrite N.eqb_refl. rewrite (fair_back _ Hans). unfold set. rewrite !N.eqb_refl. cbn [fst snd].
        rewrite sext_back by exact Lw. reflexivity.
  Qed.

  Definition tcf_calls (fid : N) (vs : list (N * val)) : list (rtcall val) := map (fun x => RtTainted (widened 64 x) fid) vs.

  Lemma get_id_known t key name fid : id_find (t_ids t) key = Some fid -> get_id t key name = (fid, t).
  Proof. unfold get_id. now intros ->. Qed.

  Lemma idxs_ok t key name fid : id_find (t_ids t) key = Some fid ->
    forall idxs k pre idxs' t' k', tcf_idxs t key name k idxs = (pre, idxs', t', k') ->
    max_of (map (fun x => o_bound (fst x)) idxs) <= k ->
    Forall (fun x => 1 <= snd x <= 64) (filter (fun x => negb (is_const (fst x))) idxs) ->
    t' = t /\ k <= k' /\ forall (e : regs) h, exists e2,
      pre_exec e h (pre : list instr) = Some (e2, tcf_calls fid (varying e idxs)) /\ agree k e e2 /\
      map (fun i => at_width (snd i) (eval e2 (fst i))) idxs' = map (fun i => at_width (snd i) (eval e (fst i))) idxs /\
      varying e2 idxs' = varying e idxs.
  Proof.
    intros Hid. induction idxs as [|[o w] rest IH]; intros k pre idxs' t' k' E B Nw; cbn [tcf_idxs] in E.
    - injection E as <- <- <- <-. split; [reflexivity|]. split; [lia|]. intros e h. exists e. cbn. split; [reflexivity|]. split; [apply agree_refl|auto].
    - cbn [map max_of fold_right fst] in B. fold (max_of (map (fun x : operand * N => o_bound (fst x)) rest)) in B. cbn [filter fst] in Nw.
      destruct (is_const o) eqn:C; cbn [negb] in Nw.
      + destruct (tcf_idxs t key name k rest) as [[[p r'] t1] k1] eqn:E1. injection E as <- <- <- <-.
        destruct (IH _ _ _ _ _ E1) as (-> & L & X); [lia|exact Nw|]. split; [reflexivity|]. split; [exact L|]. intros e h.
        destruct (X e h) as (e2 & P1 & P2 & P3 & P4). exists e2. unfold varying in *. cbn [filter fst]. rewrite C. cbn [negb map fst snd].
        split; [exact P1|]. split; [exact P2|]. split; [|exact P4]. rewrite P3. now destruct o.
      + rewrite (get_id_known _ _ _ _ Hid) in E. destruct (tcf_route k fid o w) as [[p o'] k1] eqn:Er.
        destruct (tcf_idxs t key name k1 rest) as [[[q r'] t1] k2] eqn:E1. injection E as <- <- <- <-. inversion Nw as [|x l Nw1 Nw2]; subst. cbn [snd] in Nw1.
        assert (o' = OReg (k + 2) /\ k1 = k + 3 /\ p = fst (fst (tcf_route k fid o w : list instr * operand * N))) as (-> & -> & ->)
          by (unfold tcf_route in *; injection Er as <- <- <-; auto).
        destruct (IH _ _ _ _ _ E1) as (-> & L & X); [lia|exact Nw2|]. split; [reflexivity|]. split; [lia|]. intros e h.
        destruct (route_ok k fid o w e h Nw1) as (e1 & R1 & R2 & R3); [lia|]. rewrite pre_app, R1.
        destruct (X e1 (h ++ [RtTainted (widened 64 (w, at_width w (eval e o))) fid])) as (e2 & P1 & P2 & P3 & P4). rewrite P1. exists e2.
        destruct (agree_idxs k e e1 rest R2) as [A1 A2]; [lia|].
        assert (Ek : e2 (k + 2) = at_width w (eval e o)) by (rewrite <- (P2 (k + 2)) by lia; exact R3).
        assert (Tw : at_width w (at_width w (eval e o)) = at_width w (eval e o)).
        { unfold at_width. cbn [fst snd]. rewrite N.mod_mod; [reflexivity|]. apply N.pow_nonzero. lia. }
        unfold varying in *. cbn [filter fst is_const]. rewrite C. cbn [negb map fst snd eval]. rewrite Ek, Tw, <- A2.
        split; [reflexivity|]. split; [|split].
        * intros r Lr. rewrite (R2 r Lr). apply P2. lia.
        * rewrite P3, A1. reflexivity.
        * rewrite P4, A2. reflexivity.
  Qed.

  (** ** Functions *)
  Variable H : hooks.
  Variable bnd : N -> N.
  Definition no_ghost (i : N) (g : list val) (e : regs) : Prop := True.
  Notation instr_rel := (@instr_rel W answer H bnd no_ghost).
  Notation term_rel := (@term_rel W answer H bnd no_ghost).
  Variables (t : tcf) (key : N) (name : list N) (fid : N).
  Hypothesis Hid : id_find (t_ids t) key = Some fid.
  Hypothesis H1 : h_enter H key = [RtEnter fid].
  Hypothesis H2 : forall k vs, h_decide H key k vs = tcf_calls fid vs.
  Hypothesis H3 : forall g, h_leave H key g = [RtLeave fid].

  Lemma route_pre k o w (dec : decision) : 1 <= w <= 64 -> bnd key <= k -> o_bound o <= bnd key ->
    pre_ok answer bnd no_ghost key (fst (fst (tcf_route k fid o w))) (fun _ e => h_decide H key dec [(w, at_width w (eval e o))])
      (fun e e2 => at_width w (eval e2 (OReg (k + 2))) = at_width w (eval e o)) (W := W).
  Proof.
    intros Lw Lk Lo g e e' h A _. destruct (route_ok k fid o w e' h Lw) as (e2 & P & A2 & E2); [lia|].
    exists e2. rewrite H2. cbn [tcf_calls map]. rewrite (agree_eval (bnd key) e e' o) by auto. split; [exact P|]. split.
    - intros r L. rewrite (A r L). apply A2. lia.
    - split; [exact I|]. cbn [eval]. rewrite E2. unfold at_width. cbn [fst snd]. rewrite N.mod_mod; [reflexivity|]. apply N.pow_nonzero. lia.
  Qed.

  Lemma instr_ok i k out t' k' : tcf_instr t key name k i = (out, t', k') -> bnd key <= k -> i_bound i <= bnd key -> narrow_instr i ->
    t' = t /\ k <= k' /\ instr_rel key i out.
  Proof.
    intros E Lk B Nw. destruct i as [dst args f|dst b idxs f|dst c a b f|dst v x y|dst tg args|dst c]; cbn [tcf_instr] in E;
      try (injection E as <- <- <-; split; [reflexivity|]; split; [lia|]; constructor; exact B).
    - destruct (tcf_idxs t key name k idxs) as [[[pre idxs'] t1] k1] eqn:E1. injection E as <- <- <-.
      cbn [i_bound] in B. destruct (idxs_ok t key name fid Hid _ _ _ _ _ _ E1) as (-> & L & X); [lia|exact Nw|].
      split; [reflexivity|]. split; [exact L|]. apply ir_gep; [cbn [i_bound]; lia|]. intros g e e' h A _.
      destruct (X e' h) as (e2 & P1 & P2 & P3 & P4). destruct (agree_idxs (bnd key) e e' idxs A) as [A1 A2]; [lia|].
      exists e2. rewrite H2, A2. split; [exact P1|]. split; [|split; [exact I|split; congruence]].
      intros r L1. rewrite (A r L1). apply P2. lia.
    - rewrite (get_id_known _ _ _ _ Hid) in E. injection E as <- <- <-. split; [reflexivity|]. split; [lia|].
      apply (ir_select answer H bnd no_ghost key dst c (OReg (k + 2)) a b f (fst (fst (tcf_route k fid c 1)))); [exact B|].
      cbn [i_bound] in B. apply route_pre; lia.
  Qed.
  Lemma term_ok x k pre x' t' k' : tcf_term t key name k x = (pre, x', t', k') -> bnd key <= k -> t_bound x <= bnd key -> narrow_term x ->
    t' = t /\ k <= k' /\ term_rel key x pre x'.
  Proof.
    intros E Lk B Nw. destruct x as [tg|c y n|c w cases d|v|]; cbn [tcf_term] in E; rewrite ?(get_id_known _ _ _ _ Hid) in E; cbn [t_bound narrow_term] in *.
    - injection E as <- <- <- <-. split; [reflexivity|]. split; [lia|]. constructor.
    - injection E as <- <- <- <-. split; [reflexivity|]. split; [lia|].
      apply (tr_cond answer H bnd no_ghost key c (OReg (k + 2)) y n (fst (fst (tcf_route k fid c 1)))). apply route_pre; lia.
    - injection E as <- <- <- <-. split; [reflexivity|]. split; [lia|].
      apply (tr_switch answer H bnd no_ghost key c (OReg (k + 2)) w cases d (fst (fst (tcf_route k fid c w)))). apply route_pre; lia.
    - injection E as <- <- <- <-. split; [reflexivity|]. split; [lia|]. constructor. intros g e e' h A _. exists e'. cbn. rewrite H3.
      split; [reflexivity|]. split; [exact A|]. split; [exact I|]. symmetry. now apply (agree_eval (bnd key)).
    - injection E as <- <- <- <-. split; [reflexivity|]. split; [lia|]. constructor.
  Qed.
  Lemma instrs_ok is : forall k out t' k', tcf_instrs t key name k is = (out, t', k') -> bnd key <= k ->
    max_of (map i_bound is) <= bnd key -> Forall narrow_instr is ->
    t' = t /\ k <= k' /\ exists chunks, out = concat chunks /\ Forall2 (instr_rel key) is chunks.
  Proof.
    induction is as [|i r IH]; intros k out t' k' E Lk B Nw; cbn [tcf_instrs] in E.
    - injection E as <- <- <-. split; [reflexivity|]. split; [lia|]. exists []. split; [reflexivity|constructor].
    - destruct (tcf_instr t key name k i) as [[p t1] k1] eqn:E1. destruct (tcf_instrs t1 key name k1 r) as [[q t2] k2] eqn:E2. injection E as <- <- <-.
      cbn [map max_of fold_right] in B. fold (max_of (map i_bound r)) in B. inversion Nw; subst.
      destruct (instr_ok _ _ _ _ _ E1) as (-> & L1 & R1); [exact Lk|lia|assumption|].
      destruct (IH _ _ _ _ E2) as (-> & L2 & chunks & -> & F); [lia|lia|assumption|]. split; [reflexivity|]. split; [lia|].
      exists (p :: chunks). split; [reflexivity|]. now constructor.
  Qed.
  Definition block_fits (b : block) : Prop := b_bound b <= bnd key /\ Forall narrow_instr (b_ins b) /\ narrow_term (b_term b).
  Lemma block_ok b k b' t' k' : tcf_block t key name k b = (b', t', k') -> bnd key <= k -> block_fits b ->
    t' = t /\ k <= k' /\ block_rel answer H bnd no_ghost key b b'.
  Proof.
    unfold tcf_block. intros E Lk (B & N1 & N2). destruct (tcf_instrs t key name k (b_ins b)) as [[p t1] k1] eqn:E1.
    destruct (tcf_term t1 key name k1 (b_term b)) as [[[q x] t2] k2] eqn:E2. injection E as <- <- <-. unfold b_bound in B.
    destruct (instrs_ok _ _ _ _ _ E1) as (-> & L1 & chunks & -> & F); [exact Lk|lia|exact N1|].
    destruct (term_ok _ _ _ _ _ _ E2) as (-> & L2 & T); [lia|lia|exact N2|]. split; [reflexivity|]. split; [lia|].
    exists chunks, q. cbn [b_ins b_term]. auto.
  Qed.
  Lemma blocks_ok bs : forall k bs' t' k', tcf_blocks t key name k bs = (bs', t', k') -> bnd key <= k -> Forall block_fits bs ->
    t' = t /\ k <= k' /\ Forall2 (block_rel answer H bnd no_ghost key) bs bs'.
  Proof.
    induction bs as [|b r IH]; intros k bs' t' k' E Lk F; cbn [tcf_blocks] in E.
    - injection E as <- <- <-. split; [reflexivity|]. split; [lia|]. constructor.
    - destruct (tcf_block t key name k b) as [[b1 t1] k1] eqn:E1. destruct (tcf_blocks t1 key name k1 r) as [[r1 t2] k2] eqn:E2. injection E as <- <- <-.
      inversion F; subst. destruct (block_ok _ _ _ _ _ E1) as (-> & L1 & R1); [exact Lk|assumption|].
      destruct (IH _ _ _ _ E2) as (-> & L2 & R2); [lia|assumption|]. split; [reflexivity|]. split; [lia|]. now constructor.
  Qed.

  (** The entry block starts with the report of the entry. *)
  Lemma blocks_entry k b bs bs' t' k' : tcf_blocks t key name k (at_entry (IRt None (RtEnter fid)) (b :: bs)) = (bs', t', k') ->
    bnd key <= k -> Forall block_fits (b :: bs) -> Forall (fun b => ~ In 0 (targets (b_term b))) (b :: bs) ->
    t' = t /\ exists b1 r1, bs' = b1 :: r1 /\
      (exists p is', b_ins b1 = p ++ is' /\ entry_ok answer H bnd no_ghost key p /\
                     code_rel answer H bnd no_ghost key (b_ins b) (b_term b) is' (b_term b1)) /\
      Forall2 (block_rel answer H bnd no_ghost key) bs r1.
  Proof.
    intros E Lk F V. cbn [at_entry tcf_blocks] in E. inversion F as [|b0 bs0 F1 F2]; subst b0 bs0.
    assert (exists b2 t1 k1, tcf_block t key name k b = (b2, t1, k1)) as (b2 & t1 & k1 & E1) by (destruct (tcf_block t key name k b) as [[]]; eauto).
    assert (Eb : tcf_block t key name k (mkBlock (IRt None (RtEnter fid) :: b_ins b) (b_term b)) = (mkBlock (IRt None (RtEnter fid) :: b_ins b2) (b_term b2), t1, k1)).
    { unfold tcf_block in *. cbn [b_ins b_term tcf_instrs tcf_instr]. destruct (tcf_instrs t key name k (b_ins b)) as [[p u] k0].
      destruct (tcf_term u key name k0 (b_term b)) as [[[q x] u2] k3]. injection E1 as <- <- <-. reflexivity. }
    rewrite Eb in E. destruct (tcf_blocks t1 key name k1 bs) as [[r1 t2] k2] eqn:E2. injection E as <- <- <-.
    destruct (block_ok _ _ _ _ _ E1) as (-> & L1 & R1); [exact Lk|assumption|]. destruct (blocks_ok _ _ _ _ _ E2) as (-> & _ & R2); [lia|assumption|].
    split; [reflexivity|]. do 2 eexists. split; [reflexivity|]. split; [|exact R2]. exists [IRt None (RtEnter fid)], (b_ins b2). cbn [b_ins b_term].
    split; [reflexivity|]. split; [|exact R1]. intros e h. exists e. rewrite H1. cbn. split; [reflexivity|]. split; [apply agree_refl|exact I].
  Qed.
End Tcf.

(** ** Whole modules *)
Definition tcf_hooks (id : N -> N) : hooks :=
  mkHooks (fun i => [RtEnter (id i)]) (fun i _ vs => tcf_calls (id i) vs) (fun i _ => [RtLeave (id i)]).
Definition bnd_of {W} (M : modul W) (i : N) : N := match get M i with Some f => fresh f | None => 0 end.

Definition js_bytes (names : list (list N)) : list N := [91] ++ concat (map (fun n => [34] ++ n ++ [34; 44; 10]) names).
Definition js_ok (f : ofile) (names : list (list N)) : Prop :=
  o_bytes f = js_bytes names /\ o_pos f = length (js_bytes names) /\ o_fail f = false.
Lemma o_write_end f bs : o_fail f = false -> o_pos f = length (o_bytes f) ->
  o_write f bs = mkOfile (o_bytes f ++ bs) (length (o_bytes f ++ bs)) false.
Proof.
  intros F P. unfold o_write. rewrite F, P, firstn_all, skipn_all2 by lia. now rewrite app_nil_r, app_length.
Qed.
Lemma js_append_ok f names n : js_ok f names -> js_ok (js_append f n) (names ++ [n]).
Proof.
  intros (B & P & F). assert (E : js_append f n = mkOfile (js_bytes (names ++ [n])) (length (js_bytes (names ++ [n]))) false).
  { unfold js_append. rewrite <- B in P. rewrite (o_write_end f) by auto. rewrite (o_write_end (mkOfile _ _ _) n) by reflexivity. cbn [o_bytes]. rewrite o_write_end by reflexivity. cbn [o_bytes].
    assert (Q : ((o_bytes f ++ [34]) ++ n) ++ [34; 44; 10] = js_bytes (names ++ [n])).
    { rewrite B. unfold js_bytes. rewrite map_app, concat_app. cbn [map concat]. rewrite app_nil_r, <- !app_assoc. reflexivity. }
    now rewrite Q. }
  rewrite E. split; [reflexivity|]. split; reflexivity.
Qed.
Lemma js_new_ok : js_ok js_new [].
Proof. split; [reflexivity|]. split; reflexivity. Qed.

(** The end of the file once names were written. *)
Definition js_text (names : list (list N)) (last : list N) : list N :=
  js_bytes names ++ [34] ++ last ++ [34] ++ [10; 93; 10].
Lemma js_end_ok f names last : js_ok f (names ++ [last]) -> o_bytes (js_end f) = js_text names last.
Proof.
  intros (B & P & F). assert (E : js_bytes (names ++ [last]) = (js_bytes names ++ [34] ++ last ++ [34]) ++ [44; 10]).
  { unfold js_bytes. rewrite map_app, concat_app. cbn [map concat]. rewrite app_nil_r, <- !app_assoc. reflexivity. }
  rewrite E in B, P. set (x := js_bytes names ++ [34] ++ last ++ [34]) in *. rewrite app_length in P. cbn [length] in P.
  unfold js_end, o_back. rewrite F, P. replace (Nat.ltb (length x + 2) 2) with false by (symmetry; apply Nat.ltb_ge; lia).
  unfold o_write. cbn [o_fail o_bytes o_pos]. rewrite B. replace (length x + 2 - 2)%nat with (length x) by lia.
  rewrite firstn_app, Nat.sub_diag, firstn_O, app_nil_r, firstn_all. cbn [length].
  rewrite skipn_all2 by (rewrite app_length; cbn [length]; lia). unfold x, js_text. rewrite <- !app_assoc. reflexivity.
Qed.
Lemma json_str_plain n : forall acc names r, plain_name n -> json_scan (JStr acc) names (n ++ r) = json_scan (JStr (rev n ++ acc)) names r.
Proof.
  induction n as [|b n IH]; intros acc names r P; [reflexivity|]. inversion P as [|x l (P1 & P2 & P3) P4]; subst. cbn [app json_scan].
  rewrite (proj2 (N.eqb_neq _ _) P2), (proj2 (N.eqb_neq _ _) P3), (proj2 (N.ltb_ge _ _) P1), IH by exact P4.
  cbn [rev]. now rewrite <- app_assoc.
Qed.
Lemma json_names names : forall (st : jstate) acc last rest, st = JOpen \/ st = JComma -> Forall plain_name names -> plain_name last ->
  json_scan st acc (concat (map (fun n => [34] ++ n ++ [34; 44; 10]) names) ++ [34] ++ last ++ [34] ++ rest) =
  json_scan JAfter (last :: rev names ++ acc) rest.
Proof.
  induction names as [|n names IH]; intros st acc last rest S F L; cbn [map concat app].
  - destruct S as [-> | ->]; cbn [json_scan blank N.eqb Pos.eqb orb]; rewrite json_str_plain by exact L; cbn [json_scan];
      now rewrite N.eqb_refl, app_nil_r, rev_involutive.
  - inversion F; subst.
    assert (E : forall S, S = JOpen \/ S = JComma -> json_scan S acc (34 :: (n ++ [34; 44; 10]) ++ concat (map (fun n => 34 :: n ++ [34; 44; 10]) names) ++ [34] ++ last ++ [34] ++ rest) =
             json_scan JComma (n :: acc) (10 :: concat (map (fun n => 34 :: n ++ [34; 44; 10]) names) ++ [34] ++ last ++ [34] ++ rest)).
    { intros S0 HS. rewrite <- app_assoc. destruct HS as [-> | ->]; cbn [json_scan blank N.eqb Pos.eqb orb]; rewrite json_str_plain by assumption; cbn [json_scan app];
        now rewrite N.eqb_refl, app_nil_r, rev_involutive. }
    rewrite <- app_assoc. cbn [app] in E. rewrite (E st S). cbn [json_scan blank N.eqb Pos.eqb orb]. cbn [app] in IH. rewrite IH by auto.
    cbn [rev]. now rewrite <- app_assoc.
Qed.
Lemma js_text_parses names last : Forall plain_name names -> plain_name last -> json_strings (js_text names last) = Some (names ++ [last]).
Proof.
  intros F L. unfold json_strings, js_text, js_bytes. rewrite <- app_assoc. cbn [app json_scan blank N.eqb Pos.eqb orb].
  pose proof (json_names names JOpen [] last [10; 93; 10] (or_introl eq_refl) F L) as E. cbn [app] in E. rewrite E. cbn [json_scan blank N.eqb Pos.eqb orb].
  rewrite app_nil_r. cbn [rev]. now rewrite rev_involutive.
Qed.

Lemma max_in l x : In x l -> x <= max_of l.
Proof. unfold max_of. induction l as [|a l IH]; cbn [fold_right In]; [tauto|]. intros [->|I]; [lia|]. specialize (IH I). lia. Qed.

Lemma rank_app {W} (M0 P : modul W) f M : M0 = P ++ f :: M -> rank M0 (len P) = len (filter defined P).
Proof. intros ->. unfold rank, len. now rewrite Nat2N.id, firstn_app, Nat.sub_diag, firstn_O, app_nil_r, firstn_all. Qed.
Lemma bnd_app {W} (M0 P : modul W) f M : M0 = P ++ f :: M -> bnd_of M0 (len P) = fresh f.
Proof. intros E. unfold bnd_of, get, len. rewrite E, Nat2N.id, nth_error_app2, Nat.sub_diag by lia. reflexivity. Qed.

Section Module.
  Context {W : Type}.
  Notation modul := (modul W).
  Variable answer : list (rtcall val) -> rtcall val -> val.
  Hypothesis Hans : fair answer.
  Variable M0 : modul.
  Hypothesis HV : verified M0.
  Hypothesis HN : narrow M0.
  Hypothesis HC : len (filter defined M0) <= two32.

  Lemma funcs_ok M : forall P t M' t', M0 = P ++ M -> tcf_funcs t (len P) M = (M', t') ->
    t_counter t = len (filter defined P) mod two32 -> (forall k i, In (k, i) (t_ids t) -> k < len P) ->
    js_ok (t_js t) (map f_name (filter defined P)) ->
    length M' = length M /\
    (forall j f f', nth_error M j = Some f -> nth_error M' j = Some f' ->
       func_rel answer (tcf_hooks (rank M0)) (bnd_of M0) no_ghost (len P + N.of_nat j) f f' /\ f_name f' = f_name f /\ f_params f' = f_params f) /\
    js_ok (t_js t') (map f_name (filter defined M0)).
  Proof.
    induction M as [|f M IH]; intros P t M' t' E0 E Ct Ks Js; cbn [tcf_funcs] in E.
    - injection E as <- <-. split; [reflexivity|]. split; [intros [|j]; discriminate|]. rewrite app_nil_r in E0. now rewrite E0.
    - destruct (tcf_func t (len P) f) as [f' t1] eqn:E1. destruct (tcf_funcs t1 (len P + 1) M) as [r' t2] eqn:E2. injection E as <- <-.
      assert (E0' : M0 = (P ++ [f]) ++ M) by (rewrite E0, <- app_assoc; reflexivity).
      assert (LP : len (P ++ [f]) = len P + 1) by (rewrite len_app; reflexivity).
      rewrite <- LP in E2. unfold tcf_func in E1.
      assert (Vf : Forall (fun b => ~ In 0 (targets (b_term b))) (f_blocks f)).
      { unfold verified in HV. rewrite Forall_forall in HV. apply HV. rewrite E0. apply in_or_app. right. now left. }
      assert (Nf : Forall (fun b => Forall narrow_instr (b_ins b) /\ narrow_term (b_term b)) (f_blocks f)).
      { unfold narrow in HN. rewrite Forall_forall in HN. apply HN. rewrite E0. apply in_or_app. right. now left. }
      destruct (f_blocks f) as [|b bs] eqn:Eb.
      + (* declaration *)
        injection E1 as <- <-.
        assert (Df : filter defined (P ++ [f]) = filter defined P) by (rewrite filter_app; cbn [filter]; unfold defined at 2; rewrite Eb; apply app_nil_r).
        destruct (IH (P ++ [f]) t r' t2 E0' E2) as (I1 & I2 & I3).
        { now rewrite Df. }
        { intros k i Hk. rewrite LP. specialize (Ks k i Hk). lia. }
        { now rewrite Df. }
        split; [cbn; now rewrite I1|]. split; [|exact I3]. intros [|j] g g' G G'; cbn in G, G'.
        * injection G as <-. injection G' as <-. split; [unfold func_rel; now rewrite Eb|auto].
        * destruct (I2 j g g' G G') as (R & Q). split; [|exact Q]. rewrite LP in R. replace (len P + N.of_nat (S j)) with (len P + 1 + N.of_nat j) by lia. exact R.
      + (* definition *)
        assert (Nid : id_find (t_ids t) (len P) = None).
        { clear - Ks. induction (t_ids t) as [|[k i] l IHl]; [reflexivity|]. cbn [id_find]. assert (k < len P) by (apply (Ks k i); now left).
          destruct (N.eqb_spec k (len P)); [lia|]. apply IHl. intros k0 i0 I0. apply (Ks k0 i0). now right. }
        unfold get_id in E1. rewrite Nid in E1.
        set (tn := mkTcf ((len P, t_counter t) :: t_ids t) (add32 (t_counter t) 1) (js_append (t_js t) (f_name f))) in *.
        destruct (tcf_blocks tn (len P) (f_name f) (fresh f) (at_entry (IRt None (RtEnter (t_counter t))) (b :: bs))) as [[bs' t3] k3] eqn:E3.
        injection E1 as <- <-.
        assert (Lt : len (filter defined P) < two32).
        { rewrite E0, filter_app in HC. cbn [filter] in HC. unfold defined at 2 in HC. rewrite Eb in HC. rewrite len_app in HC. unfold len in *. cbn [length] in HC. lia. }
        assert (Ec : t_counter t = rank M0 (len P)) by (rewrite Ct, (rank_app M0 P f M E0); now apply N.mod_small).
        assert (Bf := bnd_app M0 P f M E0).
        assert (X1 : id_find (t_ids tn) (len P) = Some (t_counter t)) by (cbn [tn t_ids id_find]; now rewrite N.eqb_refl).
        assert (X2 : h_enter (tcf_hooks (rank M0)) (len P) = [RtEnter (t_counter t)]) by (cbn [tcf_hooks h_enter]; now rewrite Ec).
        assert (X3 : forall k vs, h_decide (tcf_hooks (rank M0)) (len P) k vs = tcf_calls (t_counter t) vs) by (intros; cbn [tcf_hooks h_decide]; now rewrite Ec).
        assert (X4 : forall g, h_leave (tcf_hooks (rank M0)) (len P) g = [RtLeave (t_counter t)]) by (intros; cbn [tcf_hooks h_leave]; now rewrite Ec).
        assert (X5 : bnd_of M0 (len P) <= fresh f) by lia.
        assert (X6 : Forall (block_fits (bnd_of M0) (len P)) (b :: bs)).
        { rewrite Forall_forall in Nf |- *. intros x Ix. destruct (Nf x Ix) as [N1 N2]. split; [|split; assumption]. rewrite Bf. unfold fresh. rewrite Eb. apply max_in, in_map, Ix. }
        destruct (blocks_entry answer Hans _ _ _ _ (f_name f) _ X1 X2 X3 X4 _ _ _ _ _ _ E3 X5 X6 Vf) as (-> & b1 & r1 & -> & En & F2).
        assert (Df : filter defined (P ++ [f]) = filter defined P ++ [f]) by (rewrite filter_app; cbn [filter]; unfold defined at 2; now rewrite Eb).
        destruct (IH (P ++ [f]) tn r' t2 E0' E2) as (I1 & I2 & I3).
        { cbn [tn t_counter]. rewrite Df, len_app, Ct. unfold add32. rewrite N.add_mod_idemp_l by (unfold two32; lia). reflexivity. }
        { intros k i Hk. rewrite LP. cbn [tn t_ids] in Hk. destruct Hk as [Hk|Hk]; [injection Hk as <- <-; lia|]. specialize (Ks k i Hk). lia. }
        { rewrite Df, map_app. cbn [tn t_js map]. now apply js_append_ok. }
        split; [cbn; now rewrite I1|]. split; [|exact I3]. intros [|j] g g' G G'; cbn in G, G'.
        * injection G as <-. injection G' as <-. split; [|auto]. unfold func_rel. rewrite Eb. cbn [f_blocks]. rewrite N.add_0_r.
          split; [exact En|]. split; [exact F2|exact Vf].
        * destruct (I2 j g g' G G') as (R & Q). split; [|exact Q]. rewrite LP in R. replace (len P + N.of_nat (S j)) with (len P + 1 + N.of_nat j) by lia. exact R.
  Qed.

  (** What control-flow instrumentation adds, without the bookkeeping of answers. *)
  Lemma weave_flow id os : forall gs h, weave answer (tcf_hooks id) gs h os = concat (map (flow_logged id) os).
  Proof.
    induction os as [|o os IH]; intros gs h; [reflexivity|]. cbn [map concat]. destruct o; cbn [weave flow_logged h_enter h_decide h_leave tcf_hooks map app]; rewrite IH; try reflexivity.
    unfold tcf_calls. rewrite map_map, <- app_assoc. reflexivity.
  Qed.

  Lemma tcf_exec f args w n s os M' js : tcf_pass M0 = (M', js) -> execution answer M0 f args w n = Some (s, os) ->
    exists m s', (n <= m)%nat /\ execution answer M' f args w m = Some (s', concat (map (flow_logged (rank M0)) os)) /\ looks_same s s'.
  Proof.
    unfold tcf_pass. destruct (tcf_funcs tcf_new 0 M0) as [M1 t] eqn:E. intros X. injection X as <- _. intros Ex.
    destruct (funcs_ok M0 [] tcf_new M1 t eq_refl E) as (L & F & _); [reflexivity|intros k i []|exact js_new_ok|].
    rewrite <- (weave_flow _ _ [] []).
    apply exec_sim with (bnd := bnd_of M0) (gcond := no_ghost) (M := M0) (quiet := true); auto.
    - intros i g g' G G'. destruct (F (N.to_nat i) g g' G G') as (R & _). rewrite N2Nat.id in R. exact R.
    - intros _ i k vs g. split; [reflexivity|]. split; [|reflexivity]. cbn [tcf_hooks h_decide]. unfold tcf_calls. induction vs; auto.
    - discriminate.
  Qed.
End Module.

(** ** Instrumentation of branches *)
Definition branch_calls (vs : list (N * val)) : list (rtcall val) := map (fun x => RtBranch (widened 32 x)) vs.
Definition tt_hooks (skip : N -> bool) : hooks :=
  mkHooks (fun _ => [])
    (fun i k vs => if skip i then [] else match k with DSelect => [] | _ => branch_calls vs end) (fun _ _ => []).

Section Same.
  Context {W : Type}.
  Variable answer : list (rtcall val) -> rtcall val -> val.
  Variable H : hooks.
  Variable bnd : N -> N.
  Variable gcond : N -> list val -> regs -> Prop.
  Variable key : N.
  Hypothesis Hd : forall k vs, h_decide H key k vs = [].

  Lemma same_instr (i : instr W) : i_bound i <= bnd key -> @instr_rel W answer H bnd gcond key i [i].
  Proof.
    intros B. destruct i as [dst args f|dst b idxs f|dst c a b f|dst v x y|dst tg args|dst c]; try (constructor; exact B).
    - apply (ir_gep answer H bnd gcond key dst b idxs idxs f []); [exact B|]. intros g e e' h A G. exists e'. rewrite Hd.
      cbn [i_bound] in B. destruct (agree_idxs (bnd key) e e' idxs A) as [A1 A2]; [lia|]. cbn. auto.
    - apply (ir_select answer H bnd gcond key dst c c a b f []); [exact B|]. intros g e e' h A G. exists e'. rewrite Hd.
      cbn [i_bound] in B. cbn [pre_exec]. rewrite (agree_eval (bnd key) e e' c) by (auto; lia). auto.
  Qed.
  Lemma same_instrs (is : list (instr W)) : max_of (map i_bound is) <= bnd key ->
    Forall2 (@instr_rel W answer H bnd gcond key) is (map (fun i => [i]) is).
  Proof.
    induction is as [|i r IH]; intros B; [constructor|]. cbn [map max_of fold_right] in B. fold (max_of (map i_bound r)) in B.
    cbn [map]. constructor; [apply same_instr; lia|apply IH; lia].
  Qed.
  Lemma concat_ones {A} (l : list A) : concat (map (fun x => [x]) l) = l.
  Proof. induction l; [reflexivity|]. cbn. now rewrite IHl. Qed.
  Lemma same_term x : t_bound x <= bnd key -> (forall v, x <> TRet v) -> @term_rel W answer H bnd gcond key x [] x.
  Proof.
    intros B NR. destruct x as [tg|c y n|c w cases d|v|]; cbn [t_bound] in B.
    - constructor.
    - apply tr_cond. intros g e e' h A G. exists e'. rewrite Hd. cbn [pre_exec]. rewrite (agree_eval (bnd key) e e' c) by auto. auto.
    - apply tr_switch. intros g e e' h A G. exists e'. rewrite Hd. cbn [pre_exec]. rewrite (agree_eval (bnd key) e e' c) by auto. auto.
    - now destruct (NR v).
    - constructor.
  Qed.
  Lemma same_block (b : block W) : (forall g, h_leave H key g = []) -> b_bound b <= bnd key -> block_rel answer H bnd gcond key b b.
  Proof.
    intros Hl B. unfold b_bound in B. exists (map (fun i => [i]) (b_ins b)), []. rewrite concat_ones, app_nil_r. split; [reflexivity|].
    split; [apply same_instrs; lia|]. destruct (b_term b) as [tg|c y n|c w cases d|v|] eqn:Et; try (apply same_term; [lia|congruence]).
    apply tr_ret. cbn [t_bound] in B. intros g e e' h A G. exists e'. rewrite Hl. cbn [pre_exec]. rewrite (agree_eval (bnd key) e e' v) by (auto; lia). auto.
  Qed.
  Lemma same_func (f : func W) : (forall g, h_leave H key g = []) -> h_enter H key = [] -> (forall e, gcond key [] e) -> fresh f <= bnd key ->
    Forall (fun b => ~ In 0 (targets (b_term b))) (f_blocks f) -> func_rel answer H bnd gcond key f f.
  Proof.
    intros Hl He Hg B V. unfold func_rel. unfold fresh in B. destruct (f_blocks f) as [|b bs] eqn:Eb; [exact I|].
    cbn [map max_of fold_right] in B. fold (max_of (map b_bound bs)) in B. split; [|split; [|exact V]].
    - exists [], (b_ins b). split; [reflexivity|]. split; [|apply same_block; [exact Hl|lia]]. intros e h. exists e. rewrite He. cbn. split; [reflexivity|]. split; [apply agree_refl|apply Hg].
    - clear Eb V. assert (B' : max_of (map b_bound bs) <= bnd key) by lia. clear B. induction bs as [|x r IH]; [constructor|]. cbn [map max_of fold_right] in B'. fold (max_of (map b_bound r)) in B'.
      constructor; [apply same_block; [exact Hl|lia]|apply IH; lia].
  Qed.
End Same.

Section Tt.
  Context {W : Type}.
  Notation instr := (instr W).
  Notation block := (block W).
  Notation func := (func W).
  Notation modul := (modul W).
  Variable answer : list (rtcall val) -> rtcall val -> val.
  Notation pre_exec := (pre_exec answer).

  Lemma log_ok k o w (e : regs) h : o_bound o <= k ->
    exists e2, pre_exec e h (fst (tt_log k o w : list instr * N)) = Some (e2, [RtBranch (widened 32 (w, at_width w (eval e o)))]) /\ agree k e e2.
  Proof.
    intros Lo. cbn [tt_log fst snd P_Ir.pre_exec rt_map eval set_opt]. eexists. split.
    - f_equal. f_equal. f_equal. f_equal. unfold widened, at_width, set. cbn [fst snd]. rewrite N.eqb_refl, sext_mod. reflexivity.
    - intros r L. unfold set. destruct (N.eqb_spec r k); [lia|reflexivity].
  Qed.
  Lemma tt_idxs_ok : forall idxs k pre k', tt_idxs k idxs = (pre, k') ->
    max_of (map (fun x => o_bound (fst x)) idxs) <= k ->
    k <= k' /\ forall (e : regs) h, exists e2,
      pre_exec e h (pre : list instr) = Some (e2, branch_calls (varying e idxs)) /\ agree k e e2.
  Proof.
    induction idxs as [|[o w] rest IH]; intros k pre k' E B; cbn [tt_idxs] in E.
    - injection E as <- <-. split; [lia|]. intros e h. exists e. cbn. split; [reflexivity|apply agree_refl].
    - cbn [map max_of fold_right fst] in B. fold (max_of (map (fun x : operand * N => o_bound (fst x)) rest)) in B.
      destruct (is_const o) eqn:C.
      + destruct (IH _ _ _ E) as (L & X); [lia|]. split; [exact L|]. intros e h.
        destruct (X e h) as (e2 & P1 & P2). exists e2. unfold varying in *. cbn [filter fst]. rewrite C. cbn [negb]. auto.
      + destruct (tt_log k o w) as [p k1] eqn:Er. destruct (tt_idxs k1 rest) as [q k2] eqn:E1. injection E as <- <-.
        assert (k1 = k + 1 /\ p = fst (tt_log k o w : list instr * N)) as (-> & ->) by (unfold tt_log in *; injection Er as <- <-; auto).
        destruct (IH _ _ _ E1) as (L & X); [lia|]. split; [lia|]. intros e h.
        destruct (log_ok k o w e h) as (e1 & R1 & R2); [lia|]. rewrite pre_app, R1.
        destruct (X e1 (h ++ [RtBranch (widened 32 (w, at_width w (eval e o)))])) as (e2 & P1 & P2). rewrite P1. exists e2.
        destruct (agree_idxs k e e1 rest R2) as [A1 A2]; [lia|].
        unfold varying in *. cbn [filter fst is_const]. rewrite C. cbn [negb map fst snd eval]. rewrite <- A2.
        split; [reflexivity|]. intros r Lr. rewrite (R2 r Lr). apply P2. lia.
  Qed.

  Variable skip : N -> bool.
  Variable bnd : N -> N.
  Variable key : N.
  Hypothesis Hs : skip key = false.
  Notation H := (tt_hooks skip).
  Notation instr_rel := (@instr_rel W answer H bnd no_ghost).
  Notation term_rel := (@term_rel W answer H bnd no_ghost).

  Lemma tt_instr_ok i k out k' : tt_instr k i = (out, k') -> bnd key <= k -> i_bound i <= bnd key -> k <= k' /\ instr_rel key i out.
  Proof.
    intros E Lk B. destruct i as [dst args f|dst b idxs f|dst c a b f|dst v x y|dst tg args|dst c]; cbn [tt_instr] in E;
      try (injection E as <- <-; split; [lia|]; constructor; exact B).
    - destruct (tt_idxs k idxs) as [pre k1] eqn:E1. injection E as <- <-. cbn [i_bound] in B.
      destruct (tt_idxs_ok _ _ _ _ E1) as (L & X); [lia|]. split; [exact L|]. apply ir_gep; [cbn [i_bound]; lia|]. intros g e e' h A _.
      destruct (X e' h) as (e2 & P1 & P2). destruct (agree_idxs (bnd key) e e' idxs A) as [A1 A2]; [lia|].
      assert (A3 : agree (bnd key) e e2) by (intros r L1; rewrite (A r L1); apply P2; lia).
      destruct (agree_idxs (bnd key) e e2 idxs A3) as [A4 A5]; [lia|].
      exists e2. cbn [tt_hooks h_decide]. rewrite Hs, A2. split; [exact P1|]. split; [exact A3|]. split; [exact I|]. split; congruence.
    - injection E as <- <-. split; [lia|]. apply (ir_select answer H bnd no_ghost key dst c c a b f []); [exact B|]. intros g e e' h A G. exists e'.
      cbn [tt_hooks h_decide]. rewrite Hs. cbn [i_bound] in B. cbn [P_Ir.pre_exec]. rewrite (agree_eval (bnd key) e e' c) by (auto; lia). auto.
  Qed.
  Lemma tt_log_pre k o w (dec : decision) : dec <> DSelect -> bnd key <= k -> o_bound o <= bnd key ->
    pre_ok answer bnd no_ghost key (fst (tt_log k o w)) (fun _ e => h_decide H key dec [(w, at_width w (eval e o))])
      (fun e e2 => at_width w (eval e2 o) = at_width w (eval e o)) (W := W).
  Proof.
    intros Nd Lk Lo g e e' h A _. destruct (log_ok k o w e' h) as (e2 & P & A2); [lia|]. exists e2.
    assert (A3 : agree (bnd key) e e2) by (intros r L1; rewrite (A r L1); apply A2; lia).
    cbn [tt_hooks h_decide]. rewrite Hs. rewrite (agree_eval (bnd key) e e' o) by auto. split; [destruct dec; try exact P; now destruct Nd|].
    split; [exact A3|]. split; [exact I|]. rewrite <- (agree_eval (bnd key) e e' o), <- (agree_eval (bnd key) e e2 o) by auto. reflexivity.
  Qed.
  Lemma tt_term_ok x k pre k' : tt_term k x = (pre, k') -> bnd key <= k -> t_bound x <= bnd key -> k <= k' /\ term_rel key x pre x.
  Proof.
    intros E Lk B. destruct x as [tg|c y n|c w cases d|v|]; cbn [tt_term t_bound] in *.
    - injection E as <- <-. split; [lia|]. constructor.
    - unfold tt_log in E. injection E as <- <-. split; [lia|]. apply (tr_cond answer H bnd no_ghost key c c y n (fst (tt_log k c 1))).
      apply tt_log_pre; [discriminate|lia|lia].
    - unfold tt_log in E. injection E as <- <-. split; [lia|]. apply (tr_switch answer H bnd no_ghost key c c w cases d (fst (tt_log k c w))).
      apply tt_log_pre; [discriminate|lia|lia].
    - injection E as <- <-. split; [lia|]. apply tr_ret. intros g e e' h A G. exists e'. cbn [tt_hooks h_leave P_Ir.pre_exec].
      rewrite (agree_eval (bnd key) e e' v) by auto. auto.
    - injection E as <- <-. split; [lia|]. constructor.
  Qed.
  Lemma tt_instrs_ok (is : list instr) : forall k out k', tt_instrs k is = (out, k') -> bnd key <= k -> max_of (map i_bound is) <= bnd key ->
    k <= k' /\ exists chunks, out = concat chunks /\ Forall2 (instr_rel key) is chunks.
  Proof.
    induction is as [|i r IH]; intros k out k' E Lk B; cbn [tt_instrs] in E.
    - injection E as <- <-. split; [lia|]. exists []. split; [reflexivity|constructor].
    - destruct (tt_instr k i) as [p k1] eqn:E1. destruct (tt_instrs k1 r) as [q k2] eqn:E2. injection E as <- <-.
      cbn [map max_of fold_right] in B. fold (max_of (map i_bound r)) in B.
      destruct (tt_instr_ok _ _ _ _ E1) as (L1 & R1); [exact Lk|lia|].
      destruct (IH _ _ _ E2) as (L2 & chunks & -> & F); [lia|lia|]. split; [lia|]. exists (p :: chunks). split; [reflexivity|]. now constructor.
  Qed.
  Lemma tt_blocks_ok (bs : list block) : forall k, bnd key <= k -> max_of (map b_bound bs) <= bnd key ->
    Forall2 (block_rel answer H bnd no_ghost key) bs (tt_blocks k bs).
  Proof.
    induction bs as [|b r IH]; intros k Lk B; cbn [tt_blocks]; [constructor|]. cbn [map max_of fold_right] in B. fold (max_of (map b_bound r)) in B.
    unfold b_bound at 1 in B. destruct (tt_instrs k (b_ins b)) as [p k1] eqn:E1. destruct (tt_term k1 (b_term b)) as [q k2] eqn:E2.
    destruct (tt_instrs_ok _ _ _ _ E1) as (L1 & chunks & -> & F); [exact Lk|lia|]. destruct (tt_term_ok _ _ _ _ E2) as (L2 & T); [lia|lia|].
    constructor; [|apply IH; lia]. exists chunks, q. auto.
  Qed.
  Lemma tt_func_ok (f f' : func) k : f_blocks f' = tt_blocks k (f_blocks f) -> bnd key <= k -> fresh f <= bnd key ->
    Forall (fun b => ~ In 0 (targets (b_term b))) (f_blocks f) -> func_rel answer H bnd no_ghost key f f'.
  Proof.
    intros E Lk B V. unfold func_rel. rewrite E. assert (F := tt_blocks_ok (f_blocks f) k Lk B). destruct (f_blocks f) as [|b bs] eqn:Eb; [exact I|].
    destruct (tt_blocks k (b :: bs)) as [|b' bs']; [inversion F|]. inversion F; subst. split; [|split; [assumption|exact V]].
    exists [], (b_ins b'). split; [reflexivity|]. split; [|assumption]. intros e h. exists e. cbn. split; [reflexivity|]. split; [apply agree_refl|exact I].
  Qed.
End Tt.

Section TtModule.
  Context {W : Type}.
  Notation func := (func W).
  Notation modul := (modul W).
  Variable answer : list (rtcall val) -> rtcall val -> val.
  Hypothesis Hans : fair answer.
  Variable ignore : list (list N).
  Variable op : list val -> W -> option (val * W).
  Definition tt_reg (f : func) : N := N.max 2 (fresh f).
  Definition skips (M : modul) (i : N) : bool := match get M i with Some f => ignored ignore (f_name f) | None => false end.

  Lemma tt_at_entry k i b bs : (exists d args f, i = IOp d args f) ->
    tt_blocks k (mkBlock (i :: b_ins b) (b_term b) :: bs) = @at_entry W i (tt_blocks k (b :: bs)).
  Proof.
    intros (d & args & f & ->). cbn [tt_blocks at_entry b_ins b_term tt_instrs tt_instr]. destruct (tt_instrs k (b_ins b)) as [p k1].
    destruct (tt_term k1 (b_term b)) as [q k2]. reflexivity.
  Qed.

  Lemma tt_pass_shape M : forall M', tt_pass ignore op M = Ok M' ->
    length M' = length M /\
    forall j f f', nth_error (with_argv op (ignored ignore) tt_reg M) j = Some f -> nth_error M' j = Some f' ->
      if ignored ignore (f_name f) then f' = f
      else exists k, fresh f <= k /\ f_blocks f' = tt_blocks k (f_blocks f).
  Proof.
    induction M as [|f M IH]; intros M' E; cbn [tt_pass] in E.
    - injection E as <-. split; [reflexivity|]. intros [|j]; discriminate.
    - destruct (tt_func ignore op f) as [f'| | |] eqn:E1; try discriminate. cbn [bind] in E.
      destruct (tt_pass ignore op M) as [r'| | |] eqn:E2; try discriminate. cbn [bind] in E. injection E as <-.
      destruct (IH _ eq_refl) as [L F]. split; [cbn; now rewrite L|]. intros [|j] g g' G G'; cbn [with_argv map nth_error] in G, G'.
      + injection G' as <-. injection G as <-. unfold tt_func in E1. destruct (ignored ignore (f_name f)) eqn:Ig.
        * cbn [orb]. rewrite Ig. injection E1 as <-. reflexivity.
        * cbn [orb]. fold (tt_reg f) in E1. change [109; 97; 105; 110] with name_main. destruct (bytes_eqb (f_name f) name_main) eqn:Em; cbn [negb].
          -- unfold tt_argv in E1. cbn [f_params f_blocks f_name] in E1. destruct (f_params f <? 2); [discriminate|].
             destruct (f_blocks f) as [|b bs] eqn:Eb; [discriminate|]. cbn [f_name]. rewrite Ig. exists (tt_reg f + 1). split.
             ++ unfold fresh. cbn [f_blocks map max_of fold_right]. fold (max_of (map b_bound bs)). unfold b_bound at 1. cbn [b_ins b_term map max_of fold_right].
                fold (max_of (map i_bound (b_ins b))). cbn [i_bound map o_bound max_of fold_right].
                assert (fresh f <= tt_reg f) by (unfold tt_reg; lia). assert (2 <= tt_reg f) by (unfold tt_reg; lia).
                unfold fresh in H. rewrite Eb in H. cbn [map max_of fold_right] in H. fold (max_of (map b_bound bs)) in H. unfold b_bound at 1 in H. lia.
             ++ destruct (tt_blocks (tt_reg f + 1) (b :: bs)) as [|b' bs'] eqn:Et; [discriminate|].
                injection E1 as <-. cbn [f_blocks]. rewrite tt_at_entry by eauto. now rewrite Et.
          -- injection E1 as <-. rewrite Ig. exists (tt_reg f + 1). split; [unfold tt_reg; lia|reflexivity].
      + exact (F j g g' G G').
  Qed.
  Lemma with_argv_verified M : verified M -> verified (with_argv op (ignored ignore) tt_reg M).
  Proof.
    unfold verified, with_argv. rewrite !Forall_forall. intros V x Ix. apply in_map_iff in Ix as (f & <- & If). specialize (V f If).
    destruct (ignored ignore (f_name f) || _); [exact V|]. destruct (f_blocks f) as [|b bs] eqn:Eb; [now rewrite Eb|]. cbn [f_blocks]. inversion V; subst. now constructor.
  Qed.
  Lemma with_argv_name M i : skips (with_argv op (ignored ignore) tt_reg M) i = skips M i.
  Proof.
    unfold skips, with_argv, get. rewrite nth_error_map. destruct (nth_error M (N.to_nat i)) as [f|]; [|reflexivity]. cbn [option_map].
    destruct (ignored ignore (f_name f) || _); [reflexivity|]. now destruct (f_blocks f).
  Qed.

  Lemma weave_branch skip os : forall gs h, weave answer (tt_hooks skip) gs h os = concat (map (branch_logged skip) os).
  Proof.
    induction os as [|o os IH]; intros gs h; [reflexivity|]. cbn [map concat]. destruct o as [| |f k vs|]; cbn [weave branch_logged h_enter h_decide h_leave tt_hooks map app]; rewrite IH; try reflexivity.
    unfold branch_calls. destruct (skip f); destruct k; cbn [map app]; rewrite ?map_map, <- ?app_assoc; reflexivity.
  Qed.

  Lemma tt_exec M M' f args w n s os : tt_pass ignore op M = Ok M' -> verified M ->
    execution answer (with_argv op (ignored ignore) tt_reg M) f args w n = Some (s, os) ->
    exists m s', (n <= m)%nat /\ execution answer M' f args w m = Some (s', concat (map (branch_logged (skips M)) os)) /\ looks_same s s'.
  Proof.
    intros E V Ex. destruct (tt_pass_shape M M' E) as [L F]. set (M1 := with_argv op (ignored ignore) tt_reg M) in *.
    assert (V1 : verified M1) by now apply with_argv_verified.
    rewrite <- (weave_branch _ _ [] []).
    apply exec_sim with (bnd := bnd_of M1) (gcond := no_ghost) (M := M1) (quiet := true); auto.
    - unfold M1, with_argv. now rewrite map_length.
    - intros i g g' G G'. assert (B : bnd_of M1 i = fresh g) by (unfold bnd_of; now rewrite G).
      assert (Vg : Forall (fun b => ~ In 0 (targets (b_term b))) (f_blocks g)).
      { unfold verified in V1. rewrite Forall_forall in V1. apply V1. apply nth_error_In with (n := N.to_nat i). exact G. }
      assert (Sk : skips M i = ignored ignore (f_name g)) by (rewrite <- with_argv_name; fold M1; unfold skips; now rewrite G).
      specialize (F (N.to_nat i) g g' G G'). destruct (ignored ignore (f_name g)) eqn:Ig.
      + subst g'. apply same_func; auto; [intros k vs; cbn [tt_hooks h_decide]; now rewrite Sk|intros; exact I|lia].
      + destruct F as (k & Lk & F). apply (tt_func_ok answer (skips M) (bnd_of M1) i Sk g g' k); auto; lia.
    - intros _ i k vs g. split; [reflexivity|]. split; [|reflexivity]. cbn [tt_hooks h_decide]. destruct (skips M i); [reflexivity|].
      assert (X : filter is_entry (branch_calls vs) = []) by (unfold branch_calls; induction vs; auto). now destruct k.
    - discriminate.
  Qed.
End TtModule.

(** ** Instrumentation of functions *)
Definition ft_hooks (skip : N -> bool) (name : N -> list N) : hooks :=
  mkHooks (fun i => if skip i then [] else [RtEntry (name i) (len (name i) mod two16)]) (fun _ _ _ => [])
    (fun i g => if skip i then [] else [RtExit (hd (0, 0) g)]).
Definition name_of {W} (M : modul W) (i : N) : list N := match get M i with Some f => f_name f | None => [] end.

Section Ft.
  Context {W : Type}.
  Notation func := (func W).
  Notation modul := (modul W).
  Variable answer : list (rtcall val) -> rtcall val -> val.
  Hypothesis Hans : fair answer.
  Variable ignore : list (list N).
  Variable M : modul.
  Notation skip := (skips ignore M).
  Notation H := (ft_hooks skip (name_of M)).
  Notation bnd := (bnd_of M).
  Definition ft_cond (i : N) (g : list val) (e : regs) : Prop := skip i = false -> e (bnd i) = hd (0, 0) g.

  Lemma ft_block_ok i (b : block W) : skip i = false -> b_bound b <= bnd i -> block_rel answer H bnd ft_cond i b (ft_block (bnd i) b).
  Proof.
    intros Sk B. unfold b_bound in B. exists (map (fun x => [x]) (b_ins b)), (match b_term b with TRet v => [IRt None (RtExit (OReg (bnd i)))] | _ => [] end).
    rewrite concat_ones. unfold ft_block. split; [destruct (b_term b); cbn [b_ins]; now rewrite ?app_nil_r|].
    split; [apply same_instrs; [reflexivity|lia]|]. destruct (b_term b) as [tg|c y n|c w cases d|v|] eqn:Et; cbn [b_term]; rewrite ?Et; try (apply same_term; [reflexivity|cbn [t_bound] in *; lia|congruence]).
    apply tr_ret. cbn [t_bound] in B. intros g e e' h A G. exists e'. cbn [pre_exec rt_map eval set_opt ft_hooks h_leave]. rewrite Sk, (G Sk).
    split; [reflexivity|]. split; [exact A|]. split; [exact G|]. symmetry. apply (agree_eval (bnd i)); auto; lia.
  Qed.

  Lemma ft_func_ok i f : get M i = Some f -> Forall (fun b => ~ In 0 (targets (b_term b))) (f_blocks f) ->
    func_rel answer H bnd ft_cond i f (ft_func ignore f).
  Proof.
    intros G V. assert (B : bnd i = fresh f) by (unfold bnd_of; now rewrite G). assert (Nm : name_of M i = f_name f) by (unfold name_of; now rewrite G).
    assert (Sk : skip i = ignored ignore (f_name f)) by (unfold skips; now rewrite G).
    unfold ft_func. destruct (f_blocks f) as [|b bs] eqn:Eb; [unfold func_rel; now rewrite Eb|]. destruct (ignored ignore (f_name f)) eqn:Ig.
    - apply same_func; cbn [ft_hooks h_leave h_enter h_decide]; rewrite ?Sk; auto; [intros e X; congruence|lia|now rewrite Eb].
    - unfold func_rel. rewrite Eb. cbn [at_entry map f_blocks b_ins b_term]. split; [|split; [|exact V]].
      + exists [IRt (Some (fresh f)) (RtEntry (f_name f) (len (f_name f) mod two16))], (b_ins (ft_block (fresh f) b)). split; [reflexivity|]. split.
        * intros e h. exists (set e (fresh f) (answer h (RtEntry (f_name f) (len (f_name f) mod two16)))). cbn [pre_exec rt_map set_opt ft_hooks h_enter]. rewrite Sk, Nm.
          split; [reflexivity|]. split; [|intros _; cbn [answers hd]; rewrite B; unfold set; now rewrite N.eqb_refl].
          intros r L. unfold set. destruct (N.eqb_spec r (fresh f)); [lia|reflexivity].
        * rewrite <- B. apply ft_block_ok; [exact Sk|]. rewrite B. unfold fresh. rewrite Eb. apply max_in. now left.
      + rewrite <- B. assert (X : forall x, In x bs -> b_bound x <= bnd i) by (intros x Ix; rewrite B; unfold fresh; rewrite Eb; apply max_in, in_map; now right).
        clear - X Sk. induction bs as [|x r IH]; cbn [map]; constructor; [apply ft_block_ok; [exact Sk|apply X; now left]|apply IH; intros y Iy; apply X; now right].
  Qed.

  Lemma weave_trace os : forall gs h, weave answer H gs h os = trace_logged answer skip (name_of M) (map (@hd val (0, 0)) gs) h os.
  Proof.
    induction os as [|o os IH]; intros gs h; [reflexivity|]. destruct o as [f|f|f k vs|c]; cbn [weave trace_logged ft_hooks h_enter h_decide h_leave].
    - destruct (skip f); cbn [map app answers hd]; rewrite IH; rewrite ?app_nil_r; reflexivity.
    - destruct gs as [|g gs]; cbn [map hd tl]; destruct (skip f); cbn [map app]; rewrite IH, ?app_nil_r; reflexivity.
    - cbn [map app]. rewrite IH, app_nil_r. reflexivity.
    - rewrite IH. reflexivity.
  Qed.

  Lemma ft_exec f args w n s os : verified M -> calls_none is_entry M ->
    execution answer M f args w n = Some (s, os) ->
    exists m s', (n <= m)%nat /\ execution answer (ft_pass ignore M) f args w m = Some (s', trace_logged answer skip (name_of M) [] [] os) /\ looks_same s s'.
  Proof.
    intros V C Ex. pose proof (weave_trace os [] []) as Wt. cbn [map] in Wt. rewrite <- Wt. clear Wt.
    apply exec_sim with (bnd := bnd) (gcond := ft_cond) (M := M) (quiet := false); auto.
    - intros i g e r v L Gc Sk. unfold set. destruct (N.eqb_spec (bnd i) r); [lia|]. now apply Gc.
    - unfold ft_pass. now rewrite map_length.
    - intros i g g' G G'. unfold ft_pass, get in G'. rewrite nth_error_map in G'. unfold get in G. rewrite G in G'. injection G' as <-.
      apply ft_func_ok; [exact G|]. unfold verified in V. rewrite Forall_forall in V. apply V. apply nth_error_In with (n := N.to_nat i). exact G.
    - discriminate.
  Qed.
End Ft.

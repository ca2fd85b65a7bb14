(** C132: the report of where a tainted value comes from. *)
From Coq Require Import NArith Arith List Bool Lia ZArith ZifyN ZifyBool.
From Verif Require Import M_Base M_DfsanChain M_DfsanTrace T_DfsanChain.
Import ListNotations.
Open Scope N_scope.

(** The origins with the stacks printed below them. *)
Definition shown (m : message) : option (N * N) :=
  match m with Stored o s | Created o s => Some (o, s) | _ => None end.
Definition is_created (m : message) : Prop := exists o s, m = Created o s.

(** Each message shows an origin; its history is the stacks from there to the end, and exactly
    the last message says that the value was created there. *)
Definition tells (d : depot) (l : list N) (r : list message) : Prop :=
  exists pairs, map shown r = map Some pairs /\ map snd pairs = l /\
    forall before m after, r = before ++ m :: after ->
      (exists o s, shown m = Some (o, s) /\ history d o (skipn (length before) l)) /\
      (is_created m <-> after = []).

Lemma loop_tells d o l : history d o l -> forall fuel, (length l < fuel)%nat ->
  exists r, trace_loop fuel d o = Ok r /\ length r = length l /\ tells d l r /\ forall x, hd_error r = Some x -> exists s, shown x = Some (o, s).
Proof.
  induction 1 as [|o s p l NZ E H IH]; intros [|k] L; cbn [length] in L; try lia.
  - exists []. cbn [trace_loop]. split; [reflexivity|]. split; [reflexivity|]. split; [|cbn; discriminate].
    exists []. split; [reflexivity|]. split; [reflexivity|]. intros b m a Q. destruct b; discriminate.
  - destruct (IH k ltac:(lia)) as (r & R & Lr & (ps & P1 & P2 & P3) & _). cbn [trace_loop].
    pose proof NZ as NZ'. apply N.eqb_neq in NZ'. rewrite NZ', E, R. cbn [bind].
    set (m0 := if p =? 0 then Created o s else Stored o s). exists (m0 :: r).
    assert (S0 : shown m0 = Some (o, s)) by (unfold m0; destruct (p =? 0); reflexivity).
    split; [reflexivity|]. split; [cbn [length]; now rewrite Lr|]. split; [|intros x [= <-]; eauto].
    exists ((o, s) :: ps). split; [cbn [map]; now rewrite S0, P1|]. split; [cbn [map]; now rewrite P2|].
    intros b m a Q. destruct b as [|x b].
    + cbn in Q. injection Q as <- <-. split.
      * exists o, s. split; [exact S0|]. cbn. now apply (history_some _ _ _ p).
      * unfold m0. destruct (N.eqb_spec p 0) as [->|PZ].
        { assert (Lz : length l = 0%nat) by (inversion H; [reflexivity|congruence]). split; [|intros _; now exists o, s].
          intros _. apply length_zero_iff_nil. congruence. }
        { split; [intros (? & ? & K); discriminate K|]. intros ->. exfalso. cbn [length] in Lr. inversion H as [Z|? ? ? l' ? ? ? Z1 Z2]; [congruence|]. rewrite <- Z2 in Lr. discriminate Lr. }
    + cbn in Q. injection Q as -> ->. cbn [length skipn]. now apply P3.
Qed.

(** For a tainted byte whose origin was made by stores, the report has its label, then one
    message per store of its history, the latest first. *)
Theorem C132_report : forall f d os m addr l, made f d os -> In (origin_at m (addr / 4)) os ->
  label_at m addr <> 0 -> origin_at m (addr / 4) <> 0 -> history d (origin_at m (addr / 4)) l ->
  forall fuel, (length l < fuel)%nat -> exists r,
    print_origin_trace fuel true d m addr = Ok (Header (label_at m addr) :: r) /\ tells d l r /\
    (0 < history_size f -> (length r <= 16)%nat) /\
    exists init before stack, get_init_origin fuel true d m addr = Ok init /\ r = before ++ [Created init stack].
Proof.
  intros f d os m addr l M I T O H fuel L. fold (origin_for m addr) in I, O, H. destruct (loop_tells d _ l H fuel L) as (r & R & Lr & K & _).
  exists r. unfold print_origin_trace. cbn [negb]. pose proof T as T'. apply N.eqb_neq in T'. rewrite T', R. cbn [bind].
  assert (NE : r <> []).
  { intros ->. destruct l; [|discriminate Lr]. inversion H; congruence. }
  split; [destruct r; congruence|]. split; [exact K|]. split.
  { intros P. rewrite Lr. exact (C131_sixteen f d os _ l M I H P). }
  unfold get_init_origin. cbn [negb]. rewrite T'. clear - R O H L.
  assert (G : forall x, exists init before stack, init_origin fuel d (origin_for m addr) x = Ok init /\ r = before ++ [Created init stack]); [|apply G].
  revert r fuel R L. induction H as [|o s p l NZ E H IH]; intros r fuel R L x; [congruence|].
  destruct fuel as [|k]; cbn [length] in L; [lia|]. cbn [trace_loop] in R. cbn [init_origin].
  pose proof NZ as NZ'. apply N.eqb_neq in NZ'. rewrite NZ' in *. rewrite E in *.
  destruct (trace_loop k d p) as [r'| | |] eqn:R'; cbn [bind] in R; try discriminate R. injection R as <-.
  destruct (N.eqb_spec p 0) as [->|PZ].
  - destruct k; [lia|]. cbn in R'. injection R' as <-. exists o, [], s. split; reflexivity.
  - destruct (IH PZ r' k R' ltac:(lia) o) as (init & b & st & A & ->). exists init, (Stored o s :: b), st. split; [exact A|reflexivity].
Qed.
Print Assumptions C132_report.

(** Without tracking, for a byte without taint, and for a tainted byte without an origin, the
    report says so. *)
Theorem C132_nothing : forall d m addr fuel,
  print_origin_trace fuel false d m addr = Ok [NotEnabled] /\ get_init_origin fuel false d m addr = Ok 0 /\
  (label_at m addr = 0 -> print_origin_trace fuel true d m addr = Ok [NoTaint] /\ get_init_origin fuel true d m addr = Ok 0) /\
  (label_at m addr <> 0 -> origin_at m (addr / 4) = 0 -> (0 < fuel)%nat ->
     print_origin_trace fuel true d m addr = Ok [Header (label_at m addr); Invalid (label_at m addr)] /\
     get_init_origin fuel true d m addr = Ok 0).
Proof.
  intros d m addr fuel. unfold print_origin_trace, get_init_origin. cbn [negb]. split; [reflexivity|]. split; [reflexivity|].
  split; [intros ->; split; reflexivity|]. intros T O F. fold (origin_for m addr) in O. apply N.eqb_neq in T. rewrite T, O.
  destruct fuel; [lia|]. split; reflexivity.
Qed.
Print Assumptions C132_nothing.

(** The value of C131_case at the bytes 8 to 11. *)
Example C132_case : let m := mkMemory (fun a => if a =? 9 then 3 else 0) (fun c => if c =? 2 then case_o else 0) in
  print_origin_trace 5 true case_2 m 9 = Ok [Header 3; Stored case_o 8; Created 1 7] /\
  get_init_origin 5 true case_2 m 9 = Ok 1 /\ print_origin_trace 5 true case_2 m 8 = Ok [NoTaint] /\
  history case_2 (origin_at m (9 / 4)) [8; 7] /\ made (mkLimits 2 0) case_2 [case_o; case_o; 1; 0].
Proof.
  cbn zeta. repeat (split; [reflexivity|]). split; [|apply C131_case].
  change (history case_2 case_o [8; 7]). apply C131_case.
Qed.

(** An executable way to build concrete runs, for the examples beside the theorems. *)
From Coq Require Import NArith ZArith List Bool Lia.
From Verif Require Import M_Base M_Memory M_Functions M_CfLog M_Api M_OutputFile M_PyAnalysis S_Strings S_Functions S_CallStack S_OutputFile S_Api.
Import ListNotations.
Open Scope N_scope.

Definition bytesb (l : list N) : bool := forallb (fun b => b <? 256) l.
Definition name_okb (name : list N) : bool := bytesb name && (len name <=? 65535).
Definition fd_okb (s : ast) (fd : Z) : bool :=
  ((0 <=? fd) && (fd <? 2147483648))%Z &&
  (existsb (Z.eqb fd) (a_open s) || match last_with (a_regs s) fd with None => true | Some _ => false end).
Definition transfer_okb (s : ast) (pos : N -> N) (fd : Z) (off : option N) (n : N) : bool :=
  match last_with (a_regs s) fd with Some i => position pos i off + n <=? 18014398509481984 | None => true end.
Definition knownb (s : ast) (l : N) : bool := match a_lab s l with [] => false | _ => true end.
Definition cf_okb (e : cf_event) : bool :=
  match e with
  | CfEnter f => f <? 2 ^ 32
  | CfLeave f => f <? 2 ^ 32
  | CfTainted f l => (f <? 2 ^ 32) && (l <? 2 ^ 32)
  end.
Definition call_okb (s : ast) (c : call) : bool :=
  match c with
  | COpen fd path size => ((0 <=? fd) && (fd <? 2147483648))%Z && name_okb path &&
                          match size with Some n => n <? 18446744073709551615 | None => true end
  | CClose _ => true
  | CReadMem fd _ off n => (1 <=? n) && fd_okb s fd && transfer_okb s (a_rd s) fd off n
  | CReadVal fd off n => (1 <=? n) && fd_okb s fd && transfer_okb s (a_rd s) fd off n
  | CNamed name _ n => (1 <=? n) && name_okb name && (n <=? 18014398509481984)
  | CUnion l1 l2 => knownb s l1 && knownb s l2
  | CSet _ l => (l =? 0) || knownb s l
  | CWriteMem fd off _ n => fd_okb s fd && transfer_okb s (a_wr s) fd off n
  | CWriteVal fd off l n => fd_okb s fd && transfer_okb s (a_wr s) fd off n && ((l =? 0) || knownb s l)
  | CAffects l => knownb s l
  | CLog e => cf_okb e
  | CFnEntry name => name_okb name
  | CFnExit i => i <? 65536
  end.

Definition ret_okb (x : ret) : bool :=
  match x with RRange (Some (_, la)) => la <? 2147483584 | _ => true end.
Definition within_limitsb (s : ast) : bool :=
  (len (a_regs s) <=? 255) && (names_size (strings_of s) <=? 1048576) && (len (a_out s) <=? 1048576) && (len (a_names s) <=? 65535).

Definition pad0 (_ : N) : list N := [].
Definition exec (r : rt) (c : call) : Res (ret * rt) :=
  match c with
  | COpen fd path size => do r' <- rt_open r fd path size; Ok (RNone, r')
  | CClose fd => Ok (RNone, rt_close r fd)
  | CReadMem fd addr off n => do q <- rt_source_mem r fd addr off n; Ok (RRange (fst q), snd q)
  | CReadVal fd off n => do q <- rt_source_range r fd off n; Ok (RRange (fst q), snd q)
  | CNamed name addr n => do q <- rt_named r name addr n; Ok (RRange (fst q), snd q)
  | CUnion l1 l2 => do q <- rt_union r l1 l2; Ok (RLabel (fst q), snd q)
  | CSet addr l => Ok (RNone, rt_set_label r addr l)
  | CWriteMem fd off addr n => do r' <- rt_sink_mem pad0 r fd off addr n; Ok (RNone, r')
  | CWriteVal fd off l n => do r' <- rt_sink_label pad0 r fd off l n; Ok (RNone, r')
  | CAffects l => do r' <- rt_affects 1000 0 r l; Ok (RNone, r')
  | CLog e => do r' <- rt_cf r e; Ok (RNone, r')
  | CFnEntry name => do q <- rt_fn_entry 0 r name; Ok (RIndex (fst q), snd q)
  | CFnExit i => do r' <- rt_fn_exit 0 r i; Ok (RNone, r')
  end.

Fixpoint exec_all (h : list (call * ret)) (r : rt) (s : ast) (cs : list call) : Res (list (call * ret) * rt * ast) :=
  match cs with
  | [] => Ok (h, r, s)
  | c :: rest =>
      if call_okb s c then
        do q <- exec r c;
        let s' := astep s c (fst q) in
        if ret_okb (fst q) && within_limitsb s' then exec_all (h ++ [(c, fst q)]) (snd q) s' rest else Exit
      else Exit
  end.
Definition exec_run (base : N) (cs : list call) : Res (list (call * ret) * rt * ast) :=
  do r <- rt_new base; exec_all [] r a_init cs.

Lemma bytesb_ok l : bytesb l = true -> is_bytes l.
Proof. unfold bytesb, is_bytes. rewrite forallb_forall, Forall_forall. intros H x Hx. apply N.ltb_lt. auto. Qed.
Lemma name_okb_ok l : name_okb l = true -> name_ok l.
Proof. unfold name_okb, name_ok. rewrite andb_true_iff, N.leb_le. intros [H1 H2]. split; [now apply bytesb_ok|exact H2]. Qed.
Lemma fd_okb_ok s fd : fd_okb s fd = true -> fd_ok s fd.
Proof.
  unfold fd_okb, fd_ok. rewrite !andb_true_iff, orb_true_iff, Z.leb_le, Z.ltb_lt. intros [H1 H2]. split; [exact H1|].
  destruct H2 as [H2|H2].
  - apply existsb_exists in H2 as (x & H & E). apply Z.eqb_eq in E. subst. now left.
  - right. destruct (last_with (a_regs s) fd); [discriminate|reflexivity].
Qed.
Lemma transfer_okb_ok s pos fd off n : transfer_okb s pos fd off n = true -> transfer_ok s pos fd off n.
Proof. unfold transfer_okb, transfer_ok. intros H i E. rewrite E in H. now apply N.leb_le in H. Qed.
Lemma knownb_ok s l : knownb s l = true -> known s l.
Proof. unfold knownb, known. destruct (a_lab s l); [discriminate|congruence]. Qed.
Lemma cf_okb_ok e : cf_okb e = true -> cf_ok e.
Proof. destruct e; cbn [cf_okb cf_ok]; rewrite ?andb_true_iff, ?N.ltb_lt; auto. Qed.

Ltac splitb := repeat match goal with H : _ && _ = true |- _ => apply andb_true_iff in H as [? H] end.
Lemma call_okb_ok s c : call_okb s c = true -> call_ok s c.
Proof.
  destruct c; cbn [call_okb call_ok]; intros H; splitb;
    repeat match goal with
           | H : (?a || ?b) = true |- _ => apply orb_true_iff in H
           | H : N.eqb _ _ = true |- _ => apply N.eqb_eq in H
           | H : N.leb _ _ = true |- _ => apply N.leb_le in H
           | H : N.ltb _ _ = true |- _ => apply N.ltb_lt in H
           | H : fd_okb _ _ = true |- _ => apply fd_okb_ok in H
           | H : name_okb _ = true |- _ => apply name_okb_ok in H
           | H : transfer_okb _ _ _ _ _ = true |- _ => apply transfer_okb_ok in H
           | H : knownb _ _ = true |- _ => apply knownb_ok in H
           | H : cf_okb _ = true |- _ => apply cf_okb_ok in H
           end; auto.
  - repeat match goal with
           | X : Z.leb _ _ = true |- _ => apply Z.leb_le in X
           | X : Z.ltb _ _ = true |- _ => apply Z.ltb_lt in X
           end.
    split; [split; assumption|]. split; [assumption|].
    intros n ->. now apply N.ltb_lt in H.
  - destruct H as [H|H]; [left; now apply N.eqb_eq|right; now apply knownb_ok].
  - split; [assumption|]. split; [assumption|]. destruct H as [H|H]; [left; now apply N.eqb_eq|right; now apply knownb_ok].
Qed.

Lemma exec_step r c x r' : exec r c = Ok (x, r') -> api_step r c x r'.
Proof.
  assert (P : forall i, is_bytes (pad0 i)) by (intros; constructor).
  destruct c; cbn [exec]; intros H;
    repeat match type of H with
           | bind ?e _ = _ => destruct e eqn:?; cbn [bind] in H; try discriminate
           end;
    repeat match goal with q : _ * _ |- _ => destruct q end; cbn [fst snd] in *; inversion H; subst;
    econstructor; eauto; reflexivity.
Qed.

Lemma exec_all_run base cs : forall h r s h' r' s', api_run base h r s ->
  exec_all h r s cs = Ok (h', r', s') -> api_run base h' r' s'.
Proof.
  induction cs as [|c cs IH]; intros h r s h' r' s' A E; cbn [exec_all] in E; [inversion E; subst; exact A|].
  destruct (call_okb s c) eqn:C; [|discriminate]. destruct (exec r c) as [[x r1]| | |] eqn:X; cbn [bind fst snd] in E; try discriminate.
  destruct (ret_okb x && within_limitsb (astep s c x)) eqn:L; [|discriminate]. apply andb_true_iff in L as [L1 L2].
  eapply IH; [|exact E]. econstructor; [exact A|now apply call_okb_ok|now apply exec_step| |].
  - destruct x as [|[[f la]|]| |]; cbn [ret_okb ret_ok] in *; auto. now apply N.ltb_lt in L1.
  - unfold within_limitsb in L2. splitb. unfold within_limits. repeat match goal with H : N.leb _ _ = true |- _ => apply N.leb_le in H end. auto.
Qed.
Lemma exec_run_ok base cs h r s : exec_run base cs = Ok (h, r, s) -> api_run base h r s.
Proof.
  unfold exec_run. destruct (rt_new base) as [r0| | |] eqn:E; cbn [bind]; try discriminate.
  intros H. eapply exec_all_run; [|exact H]. now constructor.
Qed.

(** [existence] of a run with the given calls such that a boolean test of the final state holds. *)
Lemma demo_run base cs (test : list (call * ret) -> rt -> ast -> bool) :
  match exec_run base cs with Ok (h, r, s) => test h r s | _ => false end = true ->
  exists h r s, api_run base h r s /\ map fst h = cs /\ test h r s = true.
Proof.
  destruct (exec_run base cs) as [[[h r] s]| | |] eqn:E; try discriminate. intros H. exists h, r, s.
  split; [eapply exec_run_ok; eauto|]. split; [|exact H].
  unfold exec_run in E. destruct (rt_new base) as [r0| | |]; cbn [bind] in E; try discriminate.
  assert (G : forall cs h r s h' r' s', exec_all h r s cs = Ok (h', r', s') -> map fst h' = map fst h ++ cs).
  { clear. induction cs as [|c cs IH]; intros h r s h' r' s' E; cbn [exec_all] in E.
    - inversion E; subst. now rewrite app_nil_r.
    - destruct (call_okb s c); [|discriminate]. destruct (exec r c) as [[x r1]| | |]; cbn [bind fst snd] in E; try discriminate.
      destruct (ret_okb x && _); [|discriminate]. apply IH in E. rewrite E, map_app, <- app_assoc. reflexivity. }
  apply G in E. exact E.
Qed.

Lemma list_eqb_eq {A} (eqb : A -> A -> bool) : (forall x y, eqb x y = true -> x = y) ->
  forall a b, list_eqb eqb a b = true -> a = b.
Proof.
  intros H. induction a as [|x a IH]; intros [|y b] E; try discriminate; [reflexivity|]. cbn [list_eqb] in E.
  apply andb_true_iff in E as [E1 E2]. f_equal; auto.
Qed.
Lemma names_eqb_eq a b : list_eqb (list_eqb N.eqb) a b = true -> a = b.
Proof. apply list_eqb_eq. apply list_eqb_eq. intros x y. apply N.eqb_eq. Qed.

Lemma run_last base h r s cs c : api_run base h r s -> map fst h = cs ++ [c] ->
  exists h0 r0 s0 x, h = h0 ++ [(c, x)] /\ api_run base h0 r0 s0 /\ map fst h0 = cs /\ call_ok s0 c /\ api_step r0 c x r /\
    ret_ok x /\ within_limits (astep s0 c x) /\ s = astep s0 c x.
Proof.
  intros R E. inversion R as [|h0 r0 s0 c0 x0 r1 R0 K S Rk L]; subst.
  - destruct cs; discriminate.
  - rewrite map_app in E. cbn [map fst] in E. apply app_inj_tail in E as [E1 E2]. subst c0. exists h0, r0, s0, x0. auto 10.
Qed.

(** Lemmas for trees and terminals as text. *)
From Coq Require Import NArith Arith List Bool Lia.
From Verif Require Import M_Base M_PyParseTree S_ParseTree P_Base.
Import ListNotations.
Local Open Scope nat_scope.

Section Ind.
  Context {V : Type} (P : ptree V -> Prop) (H : forall v cs, Forall P cs -> P (PNode v cs)).
  Fixpoint ptree_ind' (t : ptree V) : P t :=
    let 'PNode v cs := t in
    H v cs ((fix go (l : list (ptree V)) : Forall P l :=
               match l with [] => Forall_nil P | c :: r => Forall_cons c (ptree_ind' c) (go r) end) cs).
End Ind.
Section DInd.
  Context (P : dtree -> Prop) (H : forall k cs, Forall P cs -> P (DNode k cs)).
  Fixpoint dtree_ind' (t : dtree) : P t :=
    let 'DNode v cs := t in
    H v cs ((fix go (l : list dtree) : Forall P l :=
               match l with [] => Forall_nil P | c :: r => Forall_cons c (dtree_ind' c) (go r) end) cs).
End DInd.

Section Trees.
  Context {V : Type}.
  Fixpoint tsize (t : ptree V) : nat := let 'PNode _ cs := t in S (list_sum (map tsize cs)).

  (** ** Traversals *)
  Lemma preorder_loop_spec : forall fuel s, list_sum (map tsize s) < fuel -> preorder_loop fuel s = Ok (flat_map nodes_first s).
  Proof.
    induction fuel as [|f IH]; intros s L; [lia|]. destruct s as [|[v cs] rest]; [reflexivity|].
    cbn [preorder_loop p_children]. rewrite IH.
    - cbn [bind flat_map nodes_first]. rewrite flat_map_app. reflexivity.
    - rewrite map_app, list_sum_app. cbn [map tsize] in L. change (list_sum (S (list_sum (map tsize cs)) :: map tsize rest)) with (S (list_sum (map tsize cs)) + list_sum (map tsize rest)) in L. lia.
  Qed.
  Definition cost (p : bool * ptree V) : nat := if fst p then 1 else 2 * tsize (snd p).
  Definition visits (p : bool * ptree V) : list (ptree V) := if fst p then [snd p] else nodes_last (snd p).
  Lemma cost_children cs : list_sum (map cost (map (fun c => (false, c)) cs)) = 2 * list_sum (map tsize cs).
  Proof. induction cs as [|c cs IH]; [reflexivity|]. cbn [map]. change (2 * tsize c + list_sum (map cost (map (fun c => (false, c)) cs)) = 2 * (tsize c + list_sum (map tsize cs))). lia. Qed.
  Lemma visits_children cs : flat_map visits (map (fun c => (false, c)) cs) = flat_map nodes_last cs.
  Proof. induction cs as [|c cs IH]; [reflexivity|]. cbn [map flat_map]. rewrite IH. reflexivity. Qed.
  Lemma postorder_loop_spec : forall fuel s, list_sum (map cost s) < fuel -> postorder_loop fuel s = Ok (flat_map visits s).
  Proof.
    induction fuel as [|f IH]; intros s L; [lia|]. destruct s as [|[e [v cs]] rest]; [reflexivity|].
    cbn [postorder_loop p_children]. change (list_sum (map cost ((e, PNode v cs) :: rest))) with (cost (e, PNode v cs) + list_sum (map cost rest)) in L.
    unfold cost at 1 in L. cbn [fst snd tsize] in L. cbn [flat_map visits]. destruct e; cbn [negb andb].
    - rewrite IH by (cbn in L; lia). reflexivity.
    - destruct cs as [|c cs].
      + rewrite IH by lia. reflexivity.
      + rewrite IH.
        * rewrite flat_map_app, visits_children. cbn [flat_map visits fst snd]. rewrite app_assoc. reflexivity.
        * rewrite map_app, list_sum_app, cost_children. change (list_sum (map cost ((true, PNode v (c :: cs)) :: rest))) with (1 + list_sum (map cost rest)). lia.
  Qed.

  (** Every node of the tree is visited. *)
  Lemma nodes_first_occurs : forall (t n : ptree V), In n (nodes_first t) <-> occurs t n.
  Proof.
    induction t as [v cs IH] using ptree_ind'. intros n. cbn [nodes_first]. rewrite Forall_forall in IH. split.
    - intros [<-|H]; [constructor|]. apply in_flat_map in H as (c & Hc & H). apply (IH c Hc) in H. now apply (occurs_below v cs c n).
    - intros H. inversion H; subst; [now left|]. right. apply in_flat_map. exists c. split; [assumption|]. now apply IH.
  Qed.
  Lemma nodes_last_occurs : forall (t n : ptree V), In n (nodes_last t) <-> occurs t n.
  Proof.
    induction t as [v cs IH] using ptree_ind'. intros n. cbn [nodes_last]. rewrite Forall_forall in IH. rewrite in_app_iff. split.
    - intros [H|[<-|[]]]; [|constructor]. apply in_flat_map in H as (c & Hc & H). apply (IH c Hc) in H. now apply (occurs_below v cs c n).
    - intros H. inversion H; subst; [right; now left|]. left. apply in_flat_map. exists c. split; [assumption|]. now apply IH.
  Qed.

  (** ** Clones *)
  Lemma set_same (st : ipts (V := V)) i x : set_ipt st i x i = x.
  Proof. unfold set_ipt. now rewrite Nat.eqb_refl. Qed.
  Lemma set_other (st : ipts (V := V)) i j x : j <> i -> set_ipt st i x j = st j.
  Proof. intros H. unfold set_ipt. destruct (Nat.eqb_spec j i); [contradiction|reflexivity]. Qed.

  (** The numbers given to the children [cs], the first of which is on top. *)
  Lemma extend_spec parent : forall (rcs : list (ptree V)) st next stack,
    exists st', extend st next parent rcs stack = (st', next + length rcs, rev (seq next (length rcs)) ++ stack) /\
      (forall j, j < next -> st' j = st j) /\
      forall k c, nth_error rcs k = Some c -> st' (next + k) = mkIpt c None (Some parent).
  Proof.
    induction rcs as [|c rcs IH]; intros st next stack.
    - exists st. cbn. rewrite Nat.add_0_r. split; [reflexivity|]. split; [auto|]. intros [|k] c H; discriminate.
    - destruct (IH (set_ipt st next (mkIpt c None (Some parent))) (S next) (next :: stack)) as (st' & E & A & B).
      exists st'. cbn [extend]. rewrite E. split; [|split].
      + f_equal; [f_equal; cbn; lia|]. cbn [length seq rev]. rewrite <- app_assoc. reflexivity.
      + intros j Hj. rewrite A by lia. apply set_other. lia.
      + intros [|k] x H; cbn [nth_error] in H.
        * injection H as <-. rewrite Nat.add_0_r, A by lia. apply set_same.
        * replace (next + S k) with (S next + k) by lia. now apply B.
  Qed.


  (** Working off the node [i], whose parent [p] holds [ps] so far. *)
  Definition works_off (t : ptree V) : Prop := forall st next i p ps rest,
    i < next -> p < next -> p <> i -> st i = mkIpt t None (Some p) -> i_children (st p) = Some ps ->
    exists k st' next', next <= next' /\
      (forall fuel, clone_loop (k + fuel) st next (i :: rest) = clone_loop fuel st' next' rest) /\
      st' p = mkIpt (i_node (st p)) (Some (ps ++ [t])) (i_parent (st p)) /\
      forall j, j < next -> j <> i -> j <> p -> st' j = st j.

  (** Working off the children that are still to be done: [m] of them are numbered from [next0],
      in reverse. *)
  Lemma works_off_all : forall cs, Forall works_off cs -> forall ids st next p ps rest,
    length ids = length cs -> p < next -> NoDup ids -> ~ In p ids -> (forall i, In i ids -> i < next) ->
    (forall k i c, nth_error ids k = Some i -> nth_error cs k = Some c -> st i = mkIpt c None (Some p)) ->
    i_children (st p) = Some ps ->
    exists k st' next', next <= next' /\
      (forall fuel, clone_loop (k + fuel) st next (ids ++ rest) = clone_loop fuel st' next' rest) /\
      st' p = mkIpt (i_node (st p)) (Some (ps ++ cs)) (i_parent (st p)) /\
      forall j, j < next -> ~ In j ids -> j <> p -> st' j = st j.
  Proof.
    induction 1 as [|c cs W Ws IH]; intros ids st next p ps rest L Lp ND Np Li St Ep.
    - destruct ids; [|discriminate]. exists 0, st, next. split; [lia|]. split; [reflexivity|]. split; [|auto].
      rewrite app_nil_r, <- Ep. now destruct (st p).
    - destruct ids as [|i ids]; [discriminate|]. inversion ND; subst.
      assert (Si : st i = mkIpt c None (Some p)) by (apply (St 0 i c); reflexivity).
      assert (Ni : p <> i) by (intros ->; apply Np; now left).
      destruct (W st next i p ps (ids ++ rest)) as (k1 & st1 & next1 & Ln & E1 & P1 & O1); [apply Li; now left|exact Lp|exact Ni|exact Si|exact Ep|].
      assert (Lids : forall x, In x ids -> x < next) by (intros; apply Li; now right).
      assert (Nip : ~ In p ids) by (intros Hx; apply Np; now right).
      destruct (IH ids st1 next1 p (ps ++ [c]) rest) as (k2 & st2 & next2 & Ln2 & E2 & P2 & O2).
      + cbn in L; lia.
      + lia.
      + assumption.
      + exact Nip.
      + intros x Hx. specialize (Lids x Hx). lia.
      + intros k x y Hx Hy. assert (In x ids) by (eapply nth_error_In; eauto).
        rewrite O1; [apply (St (S k)); assumption|now apply Lids| |]; intros ->; contradiction.
      + rewrite P1. reflexivity.
      + exists (k1 + k2), st2, next2. split; [lia|]. split; [|split].
        * intros fuel. rewrite <- Nat.add_assoc. cbn [app]. rewrite E1. apply E2.
        * rewrite P2, P1. cbn [i_node i_parent]. rewrite <- app_assoc. reflexivity.
        * intros j Hj Nj Njp. rewrite O2; [|lia|intros Hx; apply Nj; now right|exact Njp].
          apply O1; [exact Hj|intros ->; apply Nj; now left|exact Njp].
  Qed.

  (** The first visit of a node and everything below it. *)
  Lemma expand : forall v cs, Forall works_off cs -> forall st next i rest, i < next -> i_node (st i) = PNode v cs -> i_children (st i) = None ->
    exists k st' next', next <= next' /\
      (forall fuel, clone_loop (k + fuel) st next (i :: rest) = clone_loop fuel st' next' (i :: rest)) /\
      st' i = mkIpt (PNode v cs) (Some cs) (i_parent (st i)) /\
      forall j, j < next -> j <> i -> st' j = st j.
  Proof.
    intros v cs W st next i rest Li En Ec.
    set (st1 := set_ipt st i (mkIpt (i_node (st i)) (Some []) (i_parent (st i)))).
    destruct (extend_spec i (rev cs) st1 next (i :: rest)) as (st2 & Ex & A & B). rewrite rev_length in Ex.
    destruct (works_off_all cs W (rev (seq next (length cs))) st2 (next + length cs) i [] (i :: rest)) as (k & st3 & next3 & Ln & E & P & O).
    - now rewrite rev_length, seq_length.
    - lia.
    - apply NoDup_rev, seq_NoDup.
    - rewrite <- in_rev, in_seq. lia.
    - intros x Hx. rewrite <- in_rev, in_seq in Hx. lia.
    - intros k x c Hx Hc. assert (Lk : k < length cs) by (apply nth_error_Some; congruence).
      assert (Hx' : x = next + (length cs - S k)).
      { apply nth_error_nth with (d := 0) in Hx. rewrite rev_nth, seq_length, seq_nth in Hx by (rewrite ?seq_length; lia). lia. }
      subst x. apply B. rewrite <- Hc.
      rewrite (nth_error_nth' _ c) by (rewrite rev_length; lia).
      rewrite (nth_error_nth' cs c) by lia. rewrite rev_nth by lia. do 2 f_equal. lia.
    - rewrite A by exact Li. unfold st1. rewrite set_same. reflexivity.
    - exists (S k), st3, next3. split; [lia|]. split; [|split].
      + intros fuel. cbn [plus clone_loop]. rewrite Ec, En. cbn [p_children]. rewrite <- En. fold st1. rewrite Ex. apply E.
      + rewrite P. rewrite A by exact Li. unfold st1. rewrite set_same. cbn [i_node i_parent]. rewrite En. reflexivity.
      + intros j Hj Nj. rewrite O; [|lia|rewrite <- in_rev, in_seq; lia|exact Nj]. rewrite A by exact Hj. now apply set_other.
  Qed.
  Lemma all_work_off : forall t, works_off t.
  Proof.
    induction t as [v cs IH] using ptree_ind'. intros st next i p ps rest Li Lp Np Si Ep.
    destruct (expand v cs IH st next i rest) as (k & st1 & next1 & Ln & E & P & O); [exact Li|now rewrite Si|now rewrite Si|].
    assert (P1 : st1 p = st p) by (apply O; assumption).
    exists (k + 1), (set_ipt st1 p (mkIpt (i_node (st1 p)) (Some (ps ++ [PNode v cs])) (i_parent (st1 p)))), next1.
    split; [exact Ln|]. split; [|split].
    - intros fuel. rewrite <- Nat.add_assoc, E. cbn [plus clone_loop]. rewrite P. cbn [i_children i_parent i_node p_value].
      rewrite Si. cbn [i_parent]. rewrite P1, Ep. reflexivity.
    - rewrite set_same, P1. reflexivity.
    - intros j Hj Ni Njp. rewrite set_other by exact Njp. now apply O.
  Qed.
  Lemma clone_spec (t : ptree V) : exists fuel0, forall fuel, fuel0 <= fuel -> clone fuel t = Ok t.
  Proof.
    destruct t as [v cs].
    destruct (expand v cs (proj2 (Forall_forall _ _) (fun c _ => all_work_off c)) (fun _ => mkIpt (PNode v cs) None None) 1 0 []) as (k & st & next & _ & E & P & _);
      [lia|reflexivity|reflexivity|].
    exists (k + 1). intros fuel L. unfold clone. replace fuel with (k + S (fuel - k - 1)) by lia. rewrite E. cbn [clone_loop].
    rewrite P. reflexivity.
  Qed.

  (** ** Text *)
  Context (name : V -> list N).
  Definition item_text (x : ptree V + list N) : list N := match x with inl t => shown name t | inr s => s end.
  Fixpoint weight (t : ptree V) : nat := let 'PNode _ cs := t in 3 + list_sum (map (fun c => S (weight c)) cs).
  Definition item_cost (x : ptree V + list N) : nat := match x with inl t => weight t | inr _ => 1 end.
  Lemma pieces_later : forall cs i, flat_map item_text (pieces (S i) cs) = flat_map (fun y => y ++ [32%N]) (map (shown name) cs).
  Proof. induction cs as [|c cs IH]; intros i; [reflexivity|]. cbn [pieces map flat_map app item_text]. rewrite IH, <- app_assoc. reflexivity. Qed.
  Lemma pieces_text cs : flat_map item_text (pieces 0 cs) = run_together (map (shown name) cs).
  Proof. destruct cs as [|c cs]; [reflexivity|]. cbn [pieces map flat_map app item_text run_together]. now rewrite pieces_later. Qed.
  Lemma pieces_cost : forall cs i, list_sum (map item_cost (pieces i cs)) <= list_sum (map (fun c => S (weight c)) cs).
  Proof.
    induction cs as [|c cs IH]; intros i; [cbn; lia|]. cbn [pieces]. rewrite map_app, list_sum_app. specialize (IH (S i)).
    change (list_sum (map (fun c => S (weight c)) (c :: cs))) with (S (weight c) + list_sum (map (fun c => S (weight c)) cs)).
    destruct i; cbn [map list_sum fold_right item_cost]; lia.
  Qed.
  Lemma str_loop_spec : forall fuel s, list_sum (map item_cost s) < fuel -> str_loop name fuel s = Ok (flat_map item_text s).
  Proof.
    induction fuel as [|f IH]; intros s L; [lia|]. destruct s as [|[[v cs]|text] rest]; [reflexivity| |].
    - change (list_sum (map item_cost (inl (PNode v cs) :: rest))) with (weight (PNode v cs) + list_sum (map item_cost rest)) in L.
      cbn [weight] in L. cbn [str_loop p_children p_value]. assert (C := pieces_cost cs 0). assert (T := pieces_text cs).
      destruct cs as [|c cs].
      + rewrite IH by lia. reflexivity.
      + cbn [flat_map item_text]. cbn [shown]. destruct (name v) as [|x l].
        * rewrite IH.
          -- rewrite flat_map_app, T. reflexivity.
          -- rewrite map_app, list_sum_app. lia.
        * rewrite IH.
          -- cbn [bind]. rewrite flat_map_app, T. cbn [flat_map item_text]. cbn [app]. f_equal. f_equal. rewrite <- !app_assoc. cbn [app]. rewrite <- app_assoc. reflexivity.
          -- rewrite map_app, list_sum_app. change (list_sum (map item_cost (inr [93%N] :: rest))) with (1 + list_sum (map item_cost rest)). lia.
    - change (list_sum (map item_cost (inr text :: rest))) with (1 + list_sum (map item_cost rest)) in L.
      cbn [str_loop]. rewrite IH by lia. reflexivity.
  Qed.
End Trees.

(** ** Descendants *)
Local Open Scope N_scope.
Lemma fill_kept : forall t, kept_or_0 (fill t) + 1 = d_size t.
Proof.
  induction t as [k cs IH] using dtree_ind'. cbn [fill d_size]. unfold kept_or_0 at 1. cbn [d_kept].
  assert (E : fold_right (fun c n => kept_or_0 c + n) 0 (map fill cs) + len (map fill cs) = fold_right (fun c n => d_size c + n) 0 cs); [|lia].
  induction IH as [|c cs H _ IHc]; [reflexivity|]. cbn [map fold_right]. rewrite len_cons. lia.
Qed.
Lemma fill_size : forall t, d_size (fill t) = d_size t.
Proof.
  induction t as [k cs IH] using dtree_ind'. cbn [fill d_size]. f_equal. induction IH as [|c cs H _ IHc]; [reflexivity|].
  cbn [map fold_right]. lia.
Qed.

(** ** Terminals *)
Definition unhex (c : N) : N := if c <? 58 then c - 48 else c - 87.
Fixpoint unescape (s : list N) : option (list N * list N) :=
  match s with
  | [] => None
  | 92 :: 110 :: r => match unescape r with Some (t, u) => Some (10 :: t, u) | None => None end
  | 92 :: 116 :: r => match unescape r with Some (t, u) => Some (9 :: t, u) | None => None end
  | 92 :: 114 :: r => match unescape r with Some (t, u) => Some (13 :: t, u) | None => None end
  | 92 :: 34 :: r => match unescape r with Some (t, u) => Some (34 :: t, u) | None => None end
  | 92 :: 92 :: r => match unescape r with Some (t, u) => Some (92 :: t, u) | None => None end
  | 92 :: 120 :: a :: b :: r => match unescape r with Some (t, u) => Some (16 * unhex a + unhex b :: t, u) | None => None end
  | 34 :: r => Some ([], r)
  | c :: r => match unescape r with Some (t, u) => Some (c :: t, u) | None => None end
  end.
Lemma unhex_hex n : n < 16 -> unhex (hex_digit n) = n.
Proof. intros H. unfold hex_digit, unhex. destruct (N.ltb_spec n 10); [destruct (N.ltb_spec (48 + n) 58); lia|destruct (N.ltb_spec (87 + n) 58); lia]. Qed.
Definition with_byte (b : N) (x : option (list N * list N)) : option (list N * list N) :=
  match x with Some (t, u) => Some (b :: t, u) | None => None end.
Lemma unescape_byte b r : b < 256 -> unescape (escape_byte b ++ r) = with_byte b (unescape r).
Proof.
  intros H. unfold escape_byte.
  destruct (N.eqb_spec b 10) as [->|]; [reflexivity|]. destruct (N.eqb_spec b 9) as [->|]; [reflexivity|].
  destruct (N.eqb_spec b 13) as [->|]; [reflexivity|]. destruct (N.eqb_spec b 34) as [->|]; [reflexivity|].
  destruct (N.eqb_spec b 92) as [->|]; [reflexivity|].
  destruct ((32 <=? b) && (b <=? 126)) eqn:E.
  - apply andb_true_iff in E as [E1 E2]. apply N.leb_le in E1, E2. cbn [app unescape].
    repeat match goal with |- context[match ?x with _ => _ end] => is_var x; destruct x; try reflexivity end; try lia.
  - cbn [app unescape]. rewrite !unhex_hex; [|apply N.mod_lt; lia|apply N.div_lt_upper_bound; lia].
    rewrite <- (N.div_mod b 16) by lia. reflexivity.
Qed.
Lemma unescape_all : forall t r, Forall (fun b => b < 256) t -> unescape (flat_map escape_byte t ++ 34 :: r) = Some (t, r).
Proof.
  induction 1 as [|b t H _ IH]; [reflexivity|]. cbn [flat_map]. rewrite <- app_assoc, unescape_byte, IH by exact H. reflexivity.
Qed.
Lemma escape_printable b : b < 256 -> Forall printable (escape_byte b).
Proof.
  intros H. unfold escape_byte, printable.
  repeat match goal with |- context[if ?x =? ?y then _ else _] => destruct (N.eqb_spec x y); [repeat constructor; lia|] end.
  destruct ((32 <=? b) && (b <=? 126)) eqn:E.
  - apply andb_true_iff in E as [E1 E2]. apply N.leb_le in E1, E2. repeat constructor; lia.
  - assert (b / 16 < 16) by (apply N.div_lt_upper_bound; lia). assert (b mod 16 < 16) by (apply N.mod_lt; lia).
    repeat constructor; unfold hex_digit; try lia; destruct (N.ltb_spec (b / 16) 10); destruct (N.ltb_spec (b mod 16) 10); lia.
Qed.

(** ** The excerpt *)
Definition esc := flat_map escape_byte.
Lemma highlight_after : forall bytes i at_i before ol ret, at_i < i -> highlight_loop bytes i at_i before ol ret = (before, ol, ret ++ esc bytes).
Proof.
  induction bytes as [|b r IH]; intros i a before ol ret H; cbn [highlight_loop]; [now rewrite app_nil_r|].
  destruct (N.ltb_spec i a); [lia|]. destruct (N.eqb_spec i a); [lia|]. rewrite IH by lia. cbn [esc flat_map]. now rewrite <- app_assoc.
Qed.
Lemma highlight_before : forall bytes more i at_i before ol ret, i + len bytes <= at_i ->
  highlight_loop (bytes ++ more) i at_i before ol ret = highlight_loop more (i + len bytes) at_i (before + len (esc bytes)) ol (ret ++ esc bytes).
Proof.
  induction bytes as [|b r IH]; intros more i a before ol ret H.
  - cbn [app esc flat_map]. rewrite app_nil_r. change (len (@nil N)) with 0. now rewrite !N.add_0_r.
  - rewrite len_cons in H. cbn [app highlight_loop]. destruct (N.ltb_spec i a); [|lia]. rewrite IH by lia.
    cbn [esc flat_map]. rewrite len_cons, <- !app_assoc, len_app. f_equal; lia.
Qed.
Lemma marks_repeat a n : marks (1 + a) (1 + a + n) ([32] ++ repeat 32 (N.to_nat a) ++ repeat 94 (N.to_nat n)).
Proof.
  unfold marks. split.
  - rewrite !len_app. unfold len. rewrite !repeat_length. cbn [length]. lia.
  - intros i H. unfold get. change ([32] ++ repeat 32 (N.to_nat a) ++ repeat 94 (N.to_nat n)) with (repeat 32 (S (N.to_nat a)) ++ repeat 94 (N.to_nat n)).
    destruct (N.leb_spec (1 + a) i).
    + rewrite nth_error_app2 by (rewrite repeat_length; lia). rewrite repeat_length. apply nth_error_repeat. lia.
    + rewrite nth_error_app1 by (rewrite repeat_length; lia). apply nth_error_repeat. lia.
Qed.
Lemma skipn_twice {A} : forall a b (l : list A), skipn a (skipn b l) = skipn (a + b) l.
Proof. intros a b. induction b as [|b IH]; intros l; [now rewrite Nat.add_0_r|]. rewrite Nat.add_succ_r. destruct l; [now rewrite !skipn_nil|]. apply IH. Qed.

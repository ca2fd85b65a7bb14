(** Proofs about the comparison of ABI lists. *)
From Coq Require Import NArith ZArith List Bool Lia.
From Verif Require Import M_Base M_PyBuild M_DfsanAbi M_PyAbiDiff S_AbiDiff P_Base.
Import ListNotations.
Open Scope N_scope.
Open Scope list_scope.

Lemma str_eqb_iff a b : str_eqb a b = true <-> a = b.
Proof. unfold str_eqb. destruct (list_eq_dec N.eq_dec a b); split; congruence. Qed.
Lemma str_eqb_no a b : str_eqb a b = false <-> a <> b.
Proof. unfold str_eqb. destruct (list_eq_dec N.eq_dec a b); split; congruence. Qed.
Lemma mem_iff x l : mem x l = true <-> In x l.
Proof.
  unfold mem. rewrite existsb_exists. split; [intros (y & H & E); apply str_eqb_iff in E; now subst|].
  intros H. exists x. split; [exact H|now apply str_eqb_iff].
Qed.

(** ** Lines *)
Lemma readlines_more l t : ~ In 10 l -> readlines (l ++ 10 :: t) = (l ++ [10]) :: readlines t.
Proof.
  induction l as [|c l IH]; intros N; [reflexivity|]. cbn [app readlines In] in *. destruct (N.eqb_spec c 10) as [->|Ne]; [tauto|].
  rewrite IH by tauto. reflexivity.
Qed.
Lemma readlines_last l : l <> [] -> ~ In 10 l -> readlines l = [l].
Proof.
  induction l as [|c l IH]; intros H N; [congruence|]. cbn [readlines In] in *. destruct (N.eqb_spec c 10) as [->|Ne]; [tauto|].
  destruct l as [|x l]; [reflexivity|]. rewrite IH; [reflexivity|discriminate|tauto].
Qed.
Lemma lines_read t ls : lines_of t ls -> ls = readlines t.
Proof.
  induction 1 as [|l H N|l t ls N L IH]; [reflexivity|now rewrite readlines_last|]. rewrite readlines_more by exact N. now rewrite IH.
Qed.
Lemma read_lines t : lines_of t (readlines t).
Proof.
  induction t as [|c r IH]; [constructor|]. cbn [readlines]. destruct (N.eqb_spec c 10) as [->|Ne].
  - exact (li_more [] r _ (fun x => x) IH).
  - destruct IH as [|l H N|l t ls N L].
    + apply li_last; [discriminate|]. intros [E|[]]. congruence.
    + apply li_last; [discriminate|]. intros [E|E]; [congruence|tauto].
    + apply (li_more (c :: l)); [|exact L]. intros [E|E]; [congruence|tauto].
Qed.
Lemma lines_concat t ls : lines_of t ls -> concat ls = t.
Proof.
  induction 1 as [|l H N|l t ls N L IH]; [reflexivity|cbn; apply app_nil_r|]. cbn [concat]. rewrite IH, <- app_assoc. reflexivity.
Qed.
Lemma lines_nonempty t ls l : lines_of t ls -> In l ls -> l <> [].
Proof.
  induction 1 as [|l' H N|l' t ls N L IH]; [intros []|intros [<-|[]]; exact H|].
  intros [<-|I]; [destruct l'; discriminate|auto].
Qed.
(** Putting a character other than the line end before some lines. *)
Lemma lines_prefix (f : str -> str) t ls : (forall l, f l = l \/ exists c, c <> 10 /\ f l = c :: l) -> lines_of t ls -> lines_of (concat (map f ls)) (map f ls).
Proof.
  intros F. induction 1 as [|l H N|l t ls N L IH]; cbn [map concat].
  - constructor.
  - rewrite app_nil_r. destruct (F l) as [->|(c & Hc & ->)]; apply li_last; auto; [discriminate|]. intros [E|E]; tauto.
  - assert (exists l', f (l ++ [10]) = l' ++ [10] /\ ~ In 10 l') as (l' & -> & N').
    { destruct (F (l ++ [10])) as [->|(c & Hc & ->)]; [eauto|]. exists (c :: l). split; [reflexivity|]. intros [E|E]; tauto. }
    rewrite <- app_assoc. cbn [app]. now apply li_more.
Qed.

(** ** One line *)
Lemma split_none c s : ~ In c s -> split c s = [s].
Proof.
  induction s as [|x s IH]; intros N; [reflexivity|]. cbn [split In] in *. destruct (N.eqb_spec x c) as [->|Ne]; [tauto|]. rewrite IH by tauto. reflexivity.
Qed.
Lemma split_first c n v : ~ In c n -> split c (n ++ c :: v) = n :: split c v.
Proof.
  induction n as [|x n IH]; intros N; cbn [app split In] in *; [now rewrite N.eqb_refl|].
  destruct (N.eqb_spec x c) as [->|Ne]; [tauto|]. rewrite IH by tauto. reflexivity.
Qed.
Lemma split_inv c s : forall p ps, split c s = p :: ps -> ~ In c p /\ (ps = [] /\ s = p \/ exists v, s = p ++ c :: v /\ split c v = ps).
Proof.
  induction s as [|x s IH]; intros p ps E; cbn [split] in E.
  - inversion E. split; [intros []|left; auto].
  - destruct (N.eqb_spec x c) as [->|Ne].
    + inversion E; subst. split; [intros []|]. right. exists s. auto.
    + destruct (split c s) as [|q qs] eqn:Q; [exfalso; destruct s; cbn [split] in Q; [discriminate|destruct (_ =? _); [discriminate|destruct (split c s); discriminate]]|].
      destruct (IH q qs eq_refl) as (N & H). inversion E; subst. split; [intros [J|J]; congruence|].
      destruct H as [[-> ->]|(v & -> & V)]; [left; auto|right; exists v; auto].
Qed.

Lemma is_space_white c : is_space c = true <-> white c.
Proof.
  unfold is_space, white. rewrite !orb_true_iff, !andb_true_iff, !N.leb_le, !N.eqb_eq. cbn [In]. lia.
Qed.
Lemma not_space c : ~ white c -> is_space c = false.
Proof. rewrite <- is_space_white. now destruct (is_space c). Qed.

Lemma lstrip_spec s : exists s1, s = s1 ++ lstrip s /\ blank s1 /\ forall c r, lstrip s = c :: r -> ~ white c.
Proof.
  induction s as [|x s IH]; cbn [lstrip]; [exists []; split; [reflexivity|split; [constructor|discriminate]]|].
  destruct (is_space x) eqn:E.
  - destruct IH as (s1 & H & B & N). exists (x :: s1). split; [cbn; now f_equal|]. split; [constructor; [now apply is_space_white|exact B]|exact N].
  - exists []. split; [reflexivity|]. split; [constructor|]. intros c r H. inversion H. subst. rewrite <- is_space_white. congruence.
Qed.
Lemma lstrip_blank s1 s : blank s1 -> lstrip (s1 ++ s) = lstrip s.
Proof. induction 1 as [|x s1 H B IH]; [reflexivity|]. cbn [app lstrip]. rewrite (proj2 (is_space_white x) H). exact IH. Qed.
Lemma lstrip_trim s : (forall c r, s = c :: r -> ~ white c) -> lstrip s = s.
Proof. destruct s as [|x s]; intros H; [reflexivity|]. cbn [lstrip]. now rewrite (not_space x (H x s eq_refl)). Qed.
Lemma blank_rev s : blank s -> blank (rev s).
Proof. intros H. apply Forall_forall. intros x I. apply in_rev in I. unfold blank in H. rewrite Forall_forall in H. auto. Qed.
Lemma blank_app a b : blank a -> blank b -> blank (a ++ b).
Proof. intros H K. apply Forall_app. auto. Qed.

Lemma strip_spec v : exists s1 s2, v = s1 ++ strip v ++ s2 /\ blank s1 /\ blank s2 /\ trimmed (strip v).
Proof.
  unfold strip. destruct (lstrip_spec v) as (s1 & E1 & B1 & N1). destruct (lstrip_spec (rev (lstrip v))) as (s2 & E2 & B2 & N2).
  exists s1, (rev s2). assert (E3 : lstrip v = rev (lstrip (rev (lstrip v))) ++ rev s2) by (rewrite <- rev_app_distr, <- E2, rev_involutive; reflexivity).
  split; [rewrite E1 at 1; f_equal; exact E3|]. split; [exact B1|]. split; [now apply blank_rev|]. split.
  - intros c r H. rewrite H in E3. cbn [app] in E3. exact (N1 _ _ E3).
  - intros r c H. apply (f_equal (@rev N)) in H. rewrite rev_involutive, rev_app_distr in H. cbn [rev app] in H. exact (N2 _ _ H).
Qed.
Lemma strip_unique s1 c s2 : blank s1 -> blank s2 -> trimmed c -> strip (s1 ++ c ++ s2) = c.
Proof.
  intros B1 B2 [T1 T2]. unfold strip. rewrite lstrip_blank by exact B1.
  assert (R : lstrip (rev s2 ++ rev c) = rev c).
  { rewrite lstrip_blank by now apply blank_rev. apply lstrip_trim. intros x r H. apply (f_equal (@rev N)) in H. rewrite rev_involutive in H. cbn [rev] in H. exact (T2 _ _ H). }
  destruct c as [|x c].
  - cbn [app]. rewrite <- (app_nil_r s2), lstrip_blank by exact B2. reflexivity.
  - rewrite (lstrip_trim ((x :: c) ++ s2)).
    + rewrite rev_app_distr, R. apply rev_involutive.
    + intros y r H. cbn [app] in H. inversion H; subst. exact (T1 _ _ eq_refl).
Qed.

Lemma says_def line n c : says line n c -> exists v, definition_of line = Ok (Some (n, v)) /\ strip v = c.
Proof.
  intros (x & y & z & s1 & s2 & -> & B1 & B2 & T & N1 & N2). exists (s1 ++ c ++ s2). split; [|now apply strip_unique].
  cbn [app definition_of skipn]. rewrite split_first by exact N1. rewrite split_none by exact N2. reflexivity.
Qed.
Lemma def_inv line : hd 0 line = 102 /\ definition_of line = Exit \/
  (exists n v, definition_of line = Ok (Some (n, v)) /\ says line n (strip v)) \/
  hd 0 line <> 102 /\ definition_of line = Ok None.
Proof.
  destruct (N.eq_dec (hd 0 line) 102) as [E|E].
  - destruct line as [|h r]; [discriminate E|]. cbn [hd] in E. subst h.
    assert (X : definition_of (102 :: r) = match split 61 (skipn 3 r) with [fname; val] => Ok (Some (fname, val)) | _ => Exit end) by reflexivity.
    rewrite X. destruct (split 61 (skipn 3 r)) as [|n [|v [|? ?]]] eqn:S; auto. right. left. exists n, v. split; [reflexivity|].
    destruct (split_inv _ _ _ _ S) as (N1 & [[A _]|(w & E & V)]); [discriminate A|].
    destruct (split_inv _ _ _ _ V) as (N2 & [[_ ->]|(w' & _ & V')]); [|destruct w'; cbn [split] in V'; [discriminate|destruct (_ =? _); [discriminate|destruct (split 61 w'); discriminate]]].
    destruct r as [|x [|y [|z r]]]; cbn [skipn] in E; try (destruct n; discriminate E).
    destruct (strip_spec v) as (s1 & s2 & Ev & B1 & B2 & T). exists x, y, z, s1, s2. split; [cbn [app]; rewrite E; rewrite Ev at 1; reflexivity|].
    split; [exact B1|]. split; [exact B2|]. split; [exact T|]. split; [exact N1|]. now rewrite <- Ev.
  - right. right. split; [exact E|]. destruct line as [|h r]; [reflexivity|]. cbn [hd] in E. unfold definition_of.
    destruct h as [|p]; [reflexivity|]. repeat (destruct p as [p|p|]; try reflexivity). congruence.
Qed.
Lemma says_fun line n c n' c' : says line n c -> says line n' c' -> n = n' /\ c = c'.
Proof.
  intros H K. apply says_def in H as (v & E & <-). apply says_def in K as (v' & E' & <-). rewrite E in E'. inversion E'. auto.
Qed.
Lemma says_hd line n c : says line n c -> hd 0 line = 102.
Proof. intros (x & y & z & s1 & s2 & -> & _). reflexivity. Qed.

(** ** Declarations *)
Definition decl_of (line : str) : option (str * str) :=
  match definition_of line with
  | Ok (Some (n, v)) => if str_eqb (strip v) w_uninst then None else Some (n, strip v)
  | _ => None
  end.
Fixpoint decls (ls : list str) : list (str * str) :=
  match ls with [] => [] | l :: r => match decl_of l with Some d => d :: decls r | None => decls r end end.
Lemma decl_iff l n c : decl_of l = Some (n, c) <-> says l n c /\ c <> w_uninst.
Proof.
  unfold decl_of. split.
  - destruct (def_inv l) as [(_ & ->)|[(n' & v & -> & S)|(_ & ->)]]; try discriminate.
    destruct (str_eqb (strip v) w_uninst) eqn:E; [discriminate|]. intros H. inversion H; subst. apply str_eqb_no in E. auto.
  - intros [S N]. destruct (says_def _ _ _ S) as (v & -> & E). rewrite E. destruct (str_eqb c w_uninst) eqn:Q; [apply str_eqb_iff in Q; contradiction|reflexivity].
Qed.
Lemma decls_app a b : decls (a ++ b) = decls a ++ decls b.
Proof. induction a as [|l a IH]; [reflexivity|]. cbn [app decls]. rewrite IH. now destruct (decl_of l). Qed.
Lemma decls_in ls n c : In (n, c) (decls ls) <-> exists l, In l ls /\ says l n c /\ c <> w_uninst.
Proof.
  induction ls as [|l r IH]; cbn [decls]; [split; [intros []|intros (l & [] & _)]|].
  destruct (decl_of l) as [[n' c']|] eqn:E.
  - cbn [In]. rewrite IH. split.
    + intros [H|(l' & H & K)]; [inversion H; subst; exists l; split; [now left|now apply decl_iff]|exists l'; split; [now right|exact K]].
    + intros (l' & [<-|H] & K); [left; apply decl_iff in K; congruence|right; eauto].
  - rewrite IH. split; [intros (l' & H & K); exists l'; split; [now right|exact K]|].
    intros (l' & [<-|H] & K); [apply decl_iff in K; congruence|eauto].
Qed.
Lemma decls_split ls : forall D1 n c D2, decls ls = D1 ++ (n, c) :: D2 ->
  exists a l b, ls = a ++ l :: b /\ decls a = D1 /\ decls b = D2 /\ says l n c /\ c <> w_uninst.
Proof.
  induction ls as [|l r IH]; intros D1 n c D2 E; cbn [decls] in E; [destruct D1; discriminate|].
  destruct (decl_of l) as [d|] eqn:Q.
  - destruct D1 as [|d1 D1]; inversion E; subst.
    + exists [], l, r. cbn. split; [reflexivity|]. split; [reflexivity|]. split; [reflexivity|]. now apply decl_iff.
    + destruct (IH _ _ _ _ H1) as (a & l' & b & -> & A & B & S). exists (l :: a), l', b. cbn [app decls]. rewrite Q, A. auto.
  - destruct (IH _ _ _ _ E) as (a & l' & b & -> & A & B & S). exists (l :: a), l', b. cbn [app decls]. rewrite Q, A. auto.
Qed.

Definition all_fine (ls : list str) : Prop := forall l, In l ls -> hd 0 l = 102 -> exists n c, says l n c.
Lemma fine_def l : (hd 0 l = 102 -> exists n c, says l n c) -> exists o, definition_of l = Ok o.
Proof.
  intros H. destruct (def_inv l) as [(E & Q)|[(n & v & -> & S)|(_ & ->)]]; eauto.
  destruct (H E) as (n & c & S). apply says_def in S as (v & X & _). rewrite Q in X. discriminate.
Qed.

(** ** analyze_abi_file *)
Definition declare (st : conflicts * attrs) (d : str * str) : conflicts * attrs :=
  match lookup (fst d) (snd st) with
  | Some vals => (store (fst d) (negb (mem (snd d) vals)) (fst st), snd st)
  | None => (fst st, store (fst d) [snd d] (snd st))
  end.
Lemma analyze_fold ls : all_fine ls -> forall st, analyze_lines st ls = Ok (fold_left declare (decls ls) st).
Proof.
  induction ls as [|l r IH]; intros F st; [reflexivity|]. cbn [analyze_lines decls].
  destruct (fine_def l (F l (or_introl eq_refl))) as (o & E). unfold analyze_line, decl_of. destruct st as [cs fs]. rewrite E. cbn [bind].
  assert (F' : all_fine r) by (intros x Hx; apply F; now right).
  destruct o as [[n v]|]; [|cbn [bind]; now apply IH]. destruct (str_eqb (strip v) w_uninst); [cbn [bind]; now apply IH|].
  cbn [fold_left declare fst snd]. unfold declare at 2. cbn [fst snd]. destruct (lookup n fs); cbn [bind]; now apply IH.
Qed.

Lemma lookup_store {V} n (v : V) d m : lookup m (store n v d) = if str_eqb m n then Some v else lookup m d.
Proof.
  induction d as [|[k w] d IH]; cbn [store lookup]; [reflexivity|]. destruct (str_eqb n k) eqn:E; cbn [lookup].
  - apply str_eqb_iff in E. subst k. now destruct (str_eqb m n).
  - rewrite IH. destruct (str_eqb m k) eqn:E2; [|reflexivity]. apply str_eqb_iff in E2. subst k. apply str_eqb_no in E.
    destruct (str_eqb m n) eqn:E3; [apply str_eqb_iff in E3; congruence|reflexivity].
Qed.
Lemma lookup_in {V} n (v : V) d : lookup n d = Some v -> In (n, v) d.
Proof.
  induction d as [|[k w] d IH]; cbn [lookup]; [discriminate|]. destruct (str_eqb n k) eqn:E; [|right; auto].
  apply str_eqb_iff in E. intros H. inversion H. subst. now left.
Qed.
Lemma store_keys {V} n (v : V) d : map fst (store n v d) = map fst d \/ (~ In n (map fst d) /\ map fst (store n v d) = map fst d ++ [n]).
Proof.
  induction d as [|[k w] d IH]; cbn [store map fst]; [right; split; [intros []|reflexivity]|].
  destruct (str_eqb n k) eqn:E; cbn [map fst]; [now left|]. apply str_eqb_no in E. destruct IH as [->|[H ->]]; [now left|]. right.
  split; [intros [J|J]; congruence|reflexivity].
Qed.
Lemma nodup_store {V} n (v : V) d : NoDup (map fst d) -> NoDup (map fst (store n v d)).
Proof.
  intros N. destruct (store_keys n v d) as [->|[H ->]]; [exact N|]. clear v. induction (map fst d) as [|x l IH]; cbn [app]; [repeat constructor; intros []|].
  inversion N; subst. constructor; [|apply IH; [assumption|intros J; apply H; now right]].
  rewrite in_app_iff. intros [J|[J|[]]]; [contradiction|]. apply H. left. congruence.
Qed.
Lemma in_lookup {V} n (v : V) d : NoDup (map fst d) -> (In (n, v) d <-> lookup n d = Some v).
Proof.
  intros N. split; [|apply lookup_in]. induction d as [|[k w] d IH]; [intros []|]. cbn [map fst] in N. inversion N; subst. cbn [lookup]. intros [E|H].
  - inversion E; subst. now rewrite (proj2 (str_eqb_iff n n) eq_refl).
  - destruct (str_eqb n k) eqn:E; [|auto]. apply str_eqb_iff in E. subst k. exfalso. apply (in_map fst) in H. contradiction.
Qed.

(** The first value of a name, and the last one if it is not the first. *)
Fixpoint first_of (n : str) (D : list (str * str)) : option str :=
  match D with [] => None | (k, c) :: r => if str_eqb n k then Some c else first_of n r end.
Fixpoint last_of (n : str) (D : list (str * str)) : option str :=
  match D with
  | [] => None
  | (k, c) :: r => match last_of n r with Some x => Some x | None => if str_eqb n k then Some c else None end
  end.
Fixpoint again (n : str) (D : list (str * str)) : option str :=
  match D with [] => None | (k, c) :: r => if str_eqb n k then last_of n r else again n r end.

Lemma first_snoc n D d : first_of n (D ++ [d]) = match first_of n D with Some c => Some c | None => if str_eqb n (fst d) then Some (snd d) else None end.
Proof. destruct d as [k c]. induction D as [|[k' c'] D IH]; cbn [app first_of fst snd]; [reflexivity|]. now destruct (str_eqb n k'). Qed.
Lemma last_snoc n D d : last_of n (D ++ [d]) = if str_eqb n (fst d) then Some (snd d) else last_of n D.
Proof.
  destruct d as [k c]. cbn [fst snd]. induction D as [|[k' c'] D IH]; cbn [app last_of]; [reflexivity|]. rewrite IH. now destruct (str_eqb n k).
Qed.
Lemma again_snoc n D d : again n (D ++ [d]) = if str_eqb n (fst d) then match first_of n D with Some _ => Some (snd d) | None => None end else again n D.
Proof.
  destruct d as [k c]. cbn [fst snd]. induction D as [|[k' c'] D IH]; cbn [app again first_of]; [now destruct (str_eqb n k)|].
  destruct (str_eqb n k') eqn:E; [|exact IH]. rewrite last_snoc. reflexivity.
Qed.

Definition analyzed (D : list (str * str)) (st : conflicts * attrs) : Prop :=
  NoDup (map fst (fst st)) /\ NoDup (map fst (snd st)) /\
  (forall n, lookup n (snd st) = match first_of n D with Some c => Some [c] | None => None end) /\
  (forall n, lookup n (fst st) = match first_of n D, again n D with Some c, Some c' => Some (negb (str_eqb c' c)) | _, _ => None end).
Lemma declare_ok D st d : analyzed D st -> analyzed (D ++ [d]) (declare st d).
Proof.
  intros (N1 & N2 & A & B). destruct st as [cs fs], d as [k c]. cbn [fst snd] in *. unfold declare. cbn [fst snd]. rewrite (A k).
  destruct (first_of k D) as [c0|] eqn:Fk; cbn [fst snd].
  - split; [now apply nodup_store|]. split; [exact N2|]. split; intros n.
    + cbn [fst snd]. rewrite (A n), first_snoc. cbn [fst snd]. destruct (first_of n D) eqn:Fn; [reflexivity|]. destruct (str_eqb n k) eqn:E; [apply str_eqb_iff in E; congruence|reflexivity].
    + cbn [fst snd]. rewrite lookup_store, first_snoc, again_snoc. cbn [fst snd]. destruct (str_eqb n k) eqn:E.
      * apply str_eqb_iff in E. subst n. rewrite Fk. unfold mem. cbn [existsb]. now rewrite orb_false_r.
      * rewrite (B n). now destruct (first_of n D).
  - split; [exact N1|]. split; [now apply nodup_store|]. split; intros n.
    + cbn [fst snd]. rewrite lookup_store, first_snoc. cbn [fst snd]. destruct (str_eqb n k) eqn:E; [apply str_eqb_iff in E; subst n; now rewrite Fk|]. rewrite (A n). now destruct (first_of n D).
    + cbn [fst snd]. rewrite (B n), first_snoc, again_snoc. cbn [fst snd]. destruct (str_eqb n k) eqn:E.
      * apply str_eqb_iff in E. subst n. now rewrite Fk.
      * now destruct (first_of n D).
Qed.
Lemma fold_declare E : forall D st, analyzed D st -> analyzed (D ++ E) (fold_left declare E st).
Proof.
  induction E as [|d E IH]; intros D st A; cbn [fold_left]; [now rewrite app_nil_r|].
  replace (D ++ d :: E) with ((D ++ [d]) ++ E) by (rewrite <- app_assoc; reflexivity). apply IH. now apply declare_ok.
Qed.
Lemma analyze_ok t : well_formed t -> exists st, analyze_abi_file t = Ok st /\ analyzed (decls (readlines t)) st.
Proof.
  intros Wf. eexists. split; [apply analyze_fold; intros l Hl; apply (Wf _ l (read_lines t) Hl)|].
  apply (fold_declare (decls (readlines t)) []). split; [constructor|]. split; [constructor|]. split; reflexivity.
Qed.

(** ** In terms of the files *)
Lemma first_of_split n D c : first_of n D = Some c <-> exists a b, D = a ++ (n, c) :: b /\ forall x, ~ In (n, x) a.
Proof.
  split.
  - induction D as [|[k x] D IH]; cbn [first_of]; [discriminate|]. destruct (str_eqb n k) eqn:E.
    + intros H. inversion H; subst. apply str_eqb_iff in E. subst k. exists [], D. split; [reflexivity|intros y []].
    + intros H. destruct (IH H) as (a & b & -> & N). exists ((k, x) :: a), b. split; [reflexivity|]. intros y [J|J]; [inversion J; subst; apply str_eqb_no in E; congruence|now apply N in J].
  - intros (a & b & -> & N). induction a as [|[k x] a IH]; cbn [app first_of]; [now rewrite (proj2 (str_eqb_iff n n) eq_refl)|].
    destruct (str_eqb n k) eqn:E; [apply str_eqb_iff in E; subst k; exfalso; apply (N x); now left|]. apply IH. intros y J. apply (N y). now right.
Qed.
Lemma first_of_none n D : first_of n D = None <-> forall x, ~ In (n, x) D.
Proof.
  split.
  - intros H x J. apply in_split in J as (a & b & ->). induction a as [|[k y] a IH]; cbn [app first_of] in H; [rewrite (proj2 (str_eqb_iff n n) eq_refl) in H; discriminate|].
    destruct (str_eqb n k); [discriminate|auto].
  - intros H. destruct (first_of n D) eqn:E; [|reflexivity]. apply first_of_split in E as (a & b & -> & _). exfalso. apply (H s), in_app_iff. right. now left.
Qed.
Lemma last_of_split n D c : last_of n D = Some c <-> exists a b, D = a ++ (n, c) :: b /\ forall x, ~ In (n, x) b.
Proof.
  split.
  - revert c. induction D as [|[k x] D IH]; intros c; cbn [last_of]; [discriminate|]. destruct (last_of n D) as [c'|] eqn:L.
    + intros H. inversion H; subst. destruct (IH c eq_refl) as (a & b & -> & N). exists ((k, x) :: a), b. auto.
    + destruct (str_eqb n k) eqn:E; [|discriminate]. intros H. inversion H; subst. apply str_eqb_iff in E. subst k. exists [], D. split; [reflexivity|].
      intros y J. apply in_split in J as (a & b & ->). clear -L. induction a as [|[k z] a IH]; cbn [app last_of] in L.
      * destruct (last_of n b); [discriminate|]. rewrite (proj2 (str_eqb_iff n n) eq_refl) in L. discriminate.
      * destruct (last_of n (a ++ (n, y) :: b)); [discriminate|]. auto.
  - intros (a & b & -> & N). assert (L : last_of n b = None).
    { clear a. induction b as [|[k z] b IH]; [reflexivity|]. cbn [last_of]. rewrite IH by (intros x J; apply (N x); now right).
      destruct (str_eqb n k) eqn:E; [|reflexivity]. apply str_eqb_iff in E. subst k. exfalso. apply (N z). now left. }
    induction a as [|[k x] a IH]; cbn [app last_of]; [rewrite L; now rewrite (proj2 (str_eqb_iff n n) eq_refl)|]. now rewrite IH.
Qed.
Lemma again_split n D c : again n D = Some c <-> exists a x b e, D = a ++ (n, x) :: b ++ (n, c) :: e /\ (forall y, ~ In (n, y) a) /\ forall y, ~ In (n, y) e.
Proof.
  split.
  - induction D as [|[k x] D IH]; cbn [again]; [discriminate|]. destruct (str_eqb n k) eqn:E.
    + intros H. apply str_eqb_iff in E. subst k. apply last_of_split in H as (b & e & -> & N). exists [], x, b, e. split; [reflexivity|]. split; [intros y []|exact N].
    + intros H. destruct (IH H) as (a & y & b & e & -> & N1 & N2). exists ((k, x) :: a), y, b, e. split; [reflexivity|]. split; [|exact N2].
      intros z [J|J]; [inversion J; subst; apply str_eqb_no in E; congruence|now apply N1 in J].
  - intros (a & x & b & e & -> & N1 & N2). induction a as [|[k y] a IH]; cbn [app again].
    + rewrite (proj2 (str_eqb_iff n n) eq_refl). apply last_of_split. eauto.
    + destruct (str_eqb n k) eqn:E; [apply str_eqb_iff in E; subst k; exfalso; apply (N1 y); now left|]. apply IH. intros z J. apply (N1 z). now right.
Qed.
Lemma again_two n D : (exists c, again n D = Some c) <-> exists a x b y e, D = a ++ (n, x) :: b ++ (n, y) :: e.
Proof.
  split; [intros (c & H); apply again_split in H as (a & x & b & e & -> & _); eauto 6|].
  intros (a & x & b & y & e & ->). induction a as [|[k z] a IH]; cbn [app again].
  - rewrite (proj2 (str_eqb_iff n n) eq_refl). clear x. destruct (last_of n (b ++ (n, y) :: e)) eqn:L; [eauto|exfalso].
    induction b as [|[k z] b IH]; cbn [app last_of] in L; [|destruct (last_of n (b ++ (n, y) :: e)); [discriminate|auto]].
    destruct (last_of n e); [discriminate|]. rewrite (proj2 (str_eqb_iff n n) eq_refl) in L. discriminate.
  - destruct (str_eqb n k) eqn:E; [|exact IH]. clear IH. destruct (last_of n (a ++ (n, x) :: b ++ (n, y) :: e)) eqn:L; [eauto|exfalso].
    induction a as [|[k' z'] a IH]; cbn [app last_of] in L; [|destruct (last_of n (a ++ _)); [discriminate|auto]].
    destruct (last_of n (b ++ (n, y) :: e)); [discriminate|]. rewrite (proj2 (str_eqb_iff n n) eq_refl) in L. discriminate.
Qed.

Lemma not_declared a n : (forall x, ~ In (n, x) (decls a)) <-> forall l c, In l a -> says l n c -> c = w_uninst.
Proof.
  split.
  - intros H l c I S. destruct (list_eq_dec N.eq_dec c w_uninst) as [E|E]; [exact E|]. exfalso. apply (H c), decls_in. eauto.
  - intros H x I. apply decls_in in I as (l & I & S & N). apply N. eauto.
Qed.
Lemma first_says_iff t n c : first_says t n c <-> first_of n (decls (readlines t)) = Some c.
Proof.
  rewrite first_of_split. split.
  - intros (ls & a & l & b & L & -> & S & N & F). apply lines_read in L. rewrite <- L, decls_app. cbn [decls]. rewrite (proj2 (decl_iff l n c) (conj S N)).
    exists (decls a), (decls b). split; [reflexivity|]. now apply not_declared.
  - intros (D1 & D2 & E & F). destruct (decls_split _ _ _ _ _ E) as (a & l & b & R & A & B & S & N). exists (readlines t), a, l, b.
    split; [apply read_lines|]. split; [exact R|]. split; [exact S|]. split; [exact N|]. apply not_declared. now rewrite A.
Qed.
Lemma last_says_iff t n c : last_says t n c <-> last_of n (decls (readlines t)) = Some c.
Proof.
  rewrite last_of_split. split.
  - intros (ls & a & l & b & L & -> & S & N & F). apply lines_read in L. rewrite <- L, decls_app. cbn [decls]. rewrite (proj2 (decl_iff l n c) (conj S N)).
    exists (decls a), (decls b). split; [reflexivity|]. now apply not_declared.
  - intros (D1 & D2 & E & F). destruct (decls_split _ _ _ _ _ E) as (a & l & b & R & A & B & S & N). exists (readlines t), a, l, b.
    split; [apply read_lines|]. split; [exact R|]. split; [exact S|]. split; [exact N|]. apply not_declared. now rewrite B.
Qed.
Lemma twice_iff t n : declares_twice t n <-> exists c, again n (decls (readlines t)) = Some c.
Proof.
  rewrite again_two. split.
  - intros (ls & a & l & b & l' & e & c & c' & L & -> & S & S' & N & N'). apply lines_read in L. rewrite <- L, decls_app. cbn [decls]. rewrite (proj2 (decl_iff l n c) (conj S N)).
    rewrite decls_app. cbn [decls]. rewrite (proj2 (decl_iff l' n c') (conj S' N')). exists (decls a), c, (decls b), c', (decls e). reflexivity.
  - intros (D1 & x & D2 & y & D3 & E). destruct (decls_split _ _ _ _ _ E) as (a & l & b & R & A & B & S & N).
    destruct (decls_split _ _ _ _ _ B) as (a' & l' & b' & R' & A' & B' & S' & N'). exists (readlines t), a, l, a', l', b', x, y.
    split; [apply read_lines|]. split; [now rewrite R, R'|auto].
Qed.
Lemma declares_iff t n c : declares t n c <-> In (n, c) (decls (readlines t)).
Proof.
  unfold declares, lists. rewrite decls_in. split.
  - intros ((ls & l & L & I & S) & N). apply lines_read in L. subst ls. eauto.
  - intros (l & I & S & N). split; [|exact N]. exists (readlines t), l. split; [apply read_lines|auto].
Qed.
Lemma declares_once t n c c' : ~ declares_twice t n -> declares t n c -> declares t n c' -> c = c'.
Proof.
  intros T A B. apply declares_iff in A, B. destruct (list_eq_dec N.eq_dec c c') as [E|E]; [exact E|exfalso]. apply T, twice_iff, again_two.
  apply in_split in A as (p & q & E1). rewrite E1 in B. apply in_app_iff in B as [B|[B|B]]; [|congruence|]; apply in_split in B as (u & v & ->).
  - exists u, c', v, c, q. rewrite E1, <- app_assoc. reflexivity.
  - exists p, c, u, c', v. exact E1.
Qed.
Lemma first_declares t n c : first_says t n c -> declares t n c.
Proof. intros H. apply first_says_iff, first_of_split in H as (a & b & E & _). apply declares_iff. rewrite E. apply in_app_iff. right. now left. Qed.
Lemma declares_first t n c : declares t n c -> exists c', first_says t n c'.
Proof.
  intros H. apply declares_iff in H. destruct (first_of n (decls (readlines t))) as [c'|] eqn:E; [exists c'; now apply first_says_iff|].
  exfalso. exact (proj1 (first_of_none n _) E c H).
Qed.

(** ** Differences *)
Lemma list_diff_one a b : list_diff [a] [b] = negb (str_eqb a b).
Proof. unfold list_diff, mem. cbn. now rewrite !orb_false_r. Qed.
Lemma diff_iff t1 t2 st1 st2 n : analyzed (decls (readlines t1)) st1 -> analyzed (decls (readlines t2)) st2 ->
  In n (diff_conflicts (snd st1) (snd st2)) <-> disagree t1 t2 n.
Proof.
  intros (_ & N1 & A1 & _) (_ & _ & A2 & _). unfold diff_conflicts, disagree. rewrite in_map_iff. split.
  - intros ((k & vs) & <- & H). apply filter_In in H as [I H]. cbn [fst snd] in *. apply (in_lookup k vs _ N1) in I. rewrite A1 in I. rewrite A2 in H.
    destruct (first_of k (decls (readlines t1))) as [c1|] eqn:E1; [|discriminate I]. destruct (first_of k (decls (readlines t2))) as [c2|] eqn:E2; [|discriminate H].
    inversion I; subst vs. rewrite list_diff_one in H. apply negb_true_iff, str_eqb_no in H. exists c1, c2. rewrite !first_says_iff. auto.
  - intros (c1 & c2 & F1 & F2 & Ne). apply first_says_iff in F1, F2. exists (n, [c1]). split; [reflexivity|]. apply filter_In. split.
    + apply (in_lookup n [c1] _ N1). rewrite A1, F1. reflexivity.
    + cbn [fst snd]. rewrite A2, F2, list_diff_one. apply negb_true_iff, str_eqb_no. exact Ne.
Qed.

(** ** Commenting out *)
Definition mark (diff : list str) (l : str) : str :=
  match definition_of l with
  | Ok (Some (n, _)) => if mem n diff then 35 :: l else l
  | _ => l
  end.
Lemma resolve_map diff ls : all_fine ls -> resolve_lines diff ls = Ok (map (mark diff) ls).
Proof.
  induction ls as [|l r IH]; intros F; [reflexivity|]. cbn [resolve_lines map]. destruct (fine_def l (F l (or_introl eq_refl))) as (o & E).
  unfold mark at 1. rewrite E. cbn [bind]. rewrite IH by (intros x Hx; apply F; now right). cbn [bind]. destruct o as [[n v]|]; reflexivity.
Qed.
Lemma mark_cases diff l : mark diff l = l \/ exists c, c <> 10 /\ mark diff l = c :: l.
Proof. unfold mark. destruct (definition_of l) as [[[n v]|]| | |]; auto. destruct (mem n diff); [right; exists 35; split; [discriminate|reflexivity]|auto]. Qed.
Lemma mark_spec diff l : (exists n c, says l n c /\ In n diff) /\ mark diff l = 35 :: l \/ ~ (exists n c, says l n c /\ In n diff) /\ mark diff l = l.
Proof.
  unfold mark. destruct (def_inv l) as [(E & Q)|[(n & v & D & S)|(E & ->)]].
  - rewrite Q. right. split; [|reflexivity]. intros (n & c & S & _). apply says_def in S as (v & D & _). rewrite Q in D. discriminate.
  - rewrite D. destruct (mem n diff) eqn:M.
    + left. split; [|reflexivity]. apply mem_iff in M. eauto.
    + right. split; [|reflexivity]. intros (n' & c & S' & I). destruct (says_fun _ _ _ _ _ S S') as [<- _]. apply mem_iff in I. congruence.
  - right. split; [|reflexivity]. intros (n & c & S & _). apply says_hd in S. contradiction.
Qed.

Lemma mark_decl diff l : decl_of (mark diff l) = match decl_of l with Some d => if mem (fst d) diff then None else Some d | None => None end.
Proof.
  destruct (mark_spec diff l) as [((n & c & S & I) & ->)|(H & ->)].
  - assert (X : decl_of (35 :: l) = None) by reflexivity. rewrite X. destruct (decl_of l) as [[n' c']|] eqn:E; [|reflexivity].
    apply decl_iff in E as [S' _]. destruct (says_fun _ _ _ _ _ S S') as [<- _]. cbn [fst]. now rewrite (proj2 (mem_iff n diff) I).
  - destruct (decl_of l) as [[n c]|] eqn:E; [|reflexivity]. cbn [fst]. destruct (mem n diff) eqn:M; [|reflexivity].
    exfalso. apply H. apply decl_iff in E as [S _]. apply mem_iff in M. eauto.
Qed.
Lemma mark_first diff n ls : first_of n (decls (map (mark diff) ls)) = if mem n diff then None else first_of n (decls ls).
Proof.
  induction ls as [|l r IH]; cbn [map decls]; [now destruct (mem n diff)|]. rewrite mark_decl. destruct (decl_of l) as [[k c]|]; [|exact IH]. cbn [fst first_of].
  destruct (mem k diff) eqn:M; cbn [first_of]; rewrite ?IH.
  - destruct (mem n diff) eqn:M'; [reflexivity|]. destruct (str_eqb n k) eqn:E; [apply str_eqb_iff in E; congruence|reflexivity].
  - destruct (str_eqb n k) eqn:E; [|reflexivity]. apply str_eqb_iff in E. subst k. now rewrite M.
Qed.
Lemma says_mark diff l n c : says (mark diff l) n c <-> says l n c /\ ~ In n diff.
Proof.
  destruct (mark_spec diff l) as [((n' & c' & S & I) & ->)|(H & ->)].
  - split.
    + intros K. apply says_hd in K. discriminate K.
    + intros [K N]. destruct (says_fun _ _ _ _ _ S K) as [<- _]. contradiction.
  - split; [|tauto]. intros K. split; [exact K|]. intros I. apply H. eauto.
Qed.

Lemma resolve_ok t diff (P : str -> Prop) : well_formed t -> (forall n, In n diff <-> P n) -> exists t', auto_resolve_conflicts t diff = Ok t' /\
  commented P t t' /\ well_formed t' /\ (forall n c, lists t' n c <-> lists t n c /\ ~ P n) /\ (forall n c, first_says t' n c <-> first_says t n c /\ ~ P n).
Proof.
  intros Wf E. assert (F : all_fine (readlines t)) by (intros l Hl; apply (Wf _ l (read_lines t) Hl)).
  assert (Ls := lines_prefix (mark diff) t _ (mark_cases diff) (read_lines t)). set (t' := concat (map (mark diff) (readlines t))) in *.
  assert (R' := lines_read _ _ Ls). exists t'. split; [|split; [|split; [|split]]].
  - unfold auto_resolve_conflicts. rewrite (resolve_map diff _ F). reflexivity.
  - exists (readlines t), (map (mark diff) (readlines t)). split; [apply read_lines|]. split; [exact Ls|]. clear F Ls R' t' Wf.
    induction (readlines t) as [|l r IH]; cbn [map]; constructor; [|exact IH].
    destruct (mark_spec diff l) as [((n & c & S & I) & M)|(H & M)]; [left|right]; (split; [|exact M]).
    + exists n, c. split; [exact S|now apply E].
    + intros (n & c & S & I). apply H. exists n, c. split; [exact S|now apply E].
  - intros ls l L I Hd. apply lines_read in L. subst ls. rewrite <- R' in I. apply in_map_iff in I as (l0 & <- & I).
    destruct (mark_spec diff l0) as [(_ & M)|(_ & M)]; rewrite M in *; [discriminate Hd|]. exact (F l0 I Hd).
  - intros n c. unfold lists. split.
    + intros (ls & l & L & I & S). apply lines_read in L. subst ls. rewrite <- R' in I. apply in_map_iff in I as (l0 & <- & I).
      apply says_mark in S as [S N]. rewrite E in N. split; [|exact N]. exists (readlines t), l0. split; [apply read_lines|auto].
    + intros ((ls & l & L & I & S) & N). apply lines_read in L. subst ls. exists (readlines t'), (mark diff l). split; [apply read_lines|].
      split; [rewrite <- R'; now apply in_map|]. apply says_mark. split; [exact S|now rewrite E].
  - intros n c. rewrite !first_says_iff, <- R', mark_first, <- E, <- mem_iff. destruct (mem n diff); intuition congruence.
Qed.
Lemma resolve_none t : well_formed t -> auto_resolve_conflicts t [] = Ok t.
Proof.
  intros Wf. unfold auto_resolve_conflicts. rewrite resolve_map by (intros l Hl; apply (Wf _ l (read_lines t) Hl)). cbn [bind].
  f_equal. rewrite <- (lines_concat _ _ (read_lines t)) at 2. f_equal.
  rewrite <- (map_id (readlines t)) at 2. apply map_ext. intros l. unfold mark. destruct (definition_of l) as [[[n v]|]| | |]; reflexivity.
Qed.

(** ** Files that are not lists *)
Lemma analyze_lines_ok ls : forall st r, analyze_lines st ls = Ok r -> all_fine ls.
Proof.
  induction ls as [|l ls IH]; intros st r E x I Hd; [destruct I|]. cbn [analyze_lines] in E. apply bind_ok in E as (st' & E1 & E2).
  destruct I as [<-|I]; [|exact (IH _ _ E2 x I Hd)]. unfold analyze_line in E1. destruct st as [cs fs].
  destruct (def_inv l) as [(_ & Q)|[(n & v & D & S)|(Nh & _)]]; [rewrite Q in E1; discriminate|eauto|contradiction].
Qed.
Lemma analyze_lines_exit ls : forall st, analyze_lines st ls = Exit \/ exists r, analyze_lines st ls = Ok r.
Proof.
  induction ls as [|l ls IH]; intros st; cbn [analyze_lines]; [eauto|]. destruct st as [cs fs]. unfold analyze_line.
  destruct (def_inv l) as [(_ & ->)|[(n & v & -> & S)|(_ & ->)]]; cbn [bind]; auto.
  destruct (str_eqb (strip v) w_uninst); [apply IH|]. destruct (lookup n fs); cbn [bind]; apply IH.
Qed.
Lemma analyze_wf t r : analyze_abi_file t = Ok r -> well_formed t.
Proof. intros E ls l L I. apply lines_read in L. subst ls. exact (analyze_lines_ok _ _ _ E l I). Qed.
Lemma analyze_cases t : analyze_abi_file t = Exit /\ ~ well_formed t \/ exists st, analyze_abi_file t = Ok st /\ well_formed t /\ analyzed (decls (readlines t)) st.
Proof.
  destruct (analyze_lines_exit (readlines t) ([], [])) as [E|(r & E)].
  - left. split; [exact E|]. intros Wf. destruct (analyze_ok t Wf) as (st & X & _). unfold analyze_abi_file in X. rewrite E in X. discriminate.
  - right. assert (Wf := analyze_wf t r E). destruct (analyze_ok t Wf) as (st & X & A). eauto.
Qed.
Lemma again_last n D c : again n D = Some c -> last_of n D = Some c.
Proof. intros H. apply again_split in H as (a & x & b & e & -> & _ & N). apply last_of_split. exists (a ++ (n, x) :: b), e. rewrite <- app_assoc. auto. Qed.
Lemma again_first n D c : again n D = Some c -> exists c', first_of n D = Some c'.
Proof. intros H. apply again_split in H as (a & x & b & e & -> & N & _). exists x. apply first_of_split. eauto. Qed.

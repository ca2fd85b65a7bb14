(** The parse tree of a trace: what holds of any tree that is returned. *)
From Coq Require Import NArith ZArith List Bool Lia.
From Verif Require Import M_Base M_PyGrammar M_PyTree S_Grammar S_Tree P_Base P_PyTree.
Import ListNotations.
Open Scope Z_scope.

(** ** Induction *)
Section NodeInd.
  Variable P : node -> Prop.
  Hypothesis H : forall v ivs cs, Forall P cs -> P (INode v ivs cs).
  Fixpoint node_ind' (n : node) : P n :=
    match n with
    | INode v ivs cs => H v ivs cs ((fix go (l : list node) : Forall P l :=
        match l with [] => Forall_nil _ | c :: r => Forall_cons _ (node_ind' c) (go r) end) cs)
    end.
End NodeInd.
Section DoneInd.
  Variable P : done -> Prop.
  Hypothesis H : forall v b e cs, Forall P cs -> P (Done v b e cs).
  Fixpoint done_ind' (n : done) : P n :=
    match n with
    | Done v b e cs => H v b e cs ((fix go (l : list done) : Forall P l :=
        match l with [] => Forall_nil _ | c :: r => Forall_cons _ (done_ind' c) (go r) end) cs)
    end.
End DoneInd.
Section CallInd.
  Variable P : invocation -> Prop.
  Hypothesis H : forall name bs, (forall bb uid rs g, In (bb, uid, rs, Some g) bs -> P g) -> P (Invocation name bs).
  Fixpoint call_ind (f : invocation) : P f.
  Proof.
    destruct f as [name bs]. apply H. induction bs as [|[[[bb' uid'] rs'] [g'|]] r IH]; intros bb uid rs g A.
    - destruct A.
    - destruct A as [A|A]; [|exact (IH _ _ _ _ A)]. assert (E : g' = g) by congruence. rewrite <- E. apply call_ind.
    - destruct A as [A|A]; [discriminate|exact (IH _ _ _ _ A)].
  Qed.
End CallInd.

(** ** The loops by name *)
Definition up_all (len : Z) : list node -> Res (list node) := fix up_all (l : list node) : Res (list node) :=
  match l with [] => Ok [] | c :: r => do c' <- bottom_up len c; do r' <- up_all r; Ok (c' :: r') end.
Definition own_ivs (len : Z) (v : value) (ivs : intervals) : Res intervals :=
  match v with VStart => if 0 <? len then Ok (iv_add ivs (mkIv 0 len 0)) else Exit | _ => Ok ivs end.
Lemma bottom_up_eq : forall len v ivs cs,
  bottom_up len (INode v ivs cs) = (do cs' <- up_all len cs; do own <- own_ivs len v ivs; bottom_up_pass v own cs').
Proof. reflexivity. Qed.
Definition finish_all (input : list N) (b e : Z) : list node -> Res (list done) := fix finish_all (l : list node) : Res (list done) :=
  match l with
  | [] => Ok []
  | c :: r =>
      do i <- top_down_child b e (n_ivs c);
      if iv_last i <=? iv_first i then finish_all r
      else do d <- finish input c i; do ds <- finish_all r; Ok (d :: ds)
  end.
Lemma finish_eq : forall input v i0 cs ivs,
  finish input (INode v i0 cs) ivs =
  (do kids <- (if iv_last ivs <=? iv_first ivs then Ok [] else finish_all input (iv_first ivs) (iv_last ivs) cs);
   match fill input (iv_first ivs) (iv_last ivs) kids with
   | [] => Exit
   | new_children => Ok (Done v (iv_first ivs) (iv_last ivs) new_children)
   end).
Proof. reflexivity. Qed.
Fixpoint verify_all (rem : list N) (l : list done) : Res (list N) :=
  match l with [] => Ok rem | c :: r => do rem' <- verify rem c; verify_all rem' r end.
Lemma verify_eq : forall rem v b e cs, verify rem (Done v b e cs) =
  (do _ <- verify_bounds b e (map d_range cs);
   do rest <- match v with
              | VTerminal t => if starts_with rem t then Ok (skipn (length t) rem) else Exit
              | _ => Ok rem
              end;
   verify_all rest cs).
Proof. reflexivity. Qed.

(** ** Finishing *)
Inductive filled (input : list N) : done -> Prop :=
| filled_node : forall n bb b e kids, Forall (filled input) kids -> (forall k, In k kids -> d_begin k < d_end k) ->
    fill input b e kids <> [] -> filled input (Done (VEvent n bb) b e (fill input b e kids)).
Inductive ev_node : node -> Prop :=
| ev_node_intro : forall n bb ivs cs, Forall ev_node cs -> ev_node (INode (VEvent n bb) ivs cs).

Lemma finish_begin : forall input n ivs d, finish input n ivs = Ok d -> d_begin d = iv_first ivs /\ d_end d = iv_last ivs.
Proof.
  intros input [v i0 cs] ivs d E. rewrite finish_eq in E. apply bind_ok in E. destruct E as (kids & _ & E).
  destruct (fill input (iv_first ivs) (iv_last ivs) kids); [discriminate|]. injection E as <-. auto.
Qed.
Lemma finish_all_filled : forall input b e cs ds,
  Forall (fun c => ev_node c -> forall i d, finish input c i = Ok d -> filled input d) cs -> Forall ev_node cs ->
  finish_all input b e cs = Ok ds -> Forall (filled input) ds /\ forall k, In k ds -> d_begin k < d_end k.
Proof.
  induction cs as [|c r IH]; intros ds H Ev E; cbn [finish_all] in E; [injection E as <-; split; [constructor|intros k []]|].
  inversion_clear H as [|? ? Hc Hr]. inversion_clear Ev as [|? ? Ec Er].
  apply bind_ok in E. destruct E as (i & _ & E). destruct (iv_last i <=? iv_first i) eqn:L; [now apply IH|].
  apply bind_ok in E. destruct E as (d & D & E). apply bind_ok in E. destruct E as (ds' & F & E). injection E as <-.
  destruct (IH ds' Hr Er F) as [A B]. destruct (finish_begin _ _ _ _ D) as [C1 C2]. apply Z.leb_gt in L. split.
  - constructor; [now apply (Hc Ec i)|exact A].
  - intros k [<-|K]; [lia|auto].
Qed.
Lemma finish_filled : forall input n, ev_node n -> forall i d, finish input n i = Ok d -> filled input d.
Proof.
  intros input n. induction n as [v i0 cs IH] using node_ind'. intros Ev i d E. inversion Ev as [nm bb ? ? Ec E1]. subst.
  rewrite finish_eq in E. apply bind_ok in E. destruct E as (kids & K & E).
  destruct (fill input (iv_first i) (iv_last i) kids) as [|x r] eqn:F; [discriminate|]. injection E as <-. rewrite <- F.
  assert (A : Forall (filled input) kids /\ forall k, In k kids -> d_begin k < d_end k).
  { destruct (iv_last i <=? iv_first i); [injection K as <-; split; [constructor|intros k []]|].
    now apply (finish_all_filled input (iv_first i) (iv_last i) cs). }
  constructor; [apply A|apply A|]. rewrite F. discriminate.
Qed.

(** ** What the verification says *)
Lemma check_overlap_in : forall rs cov cov', check_overlap cov rs = Ok cov' ->
  (forall x, In x cov -> In x cov') /\ (forall b e, In (b, e) rs -> b < e -> In (mkIv b e 0) cov').
Proof.
  induction rs as [|[b e] rs IH]; intros cov cov' E; cbn [check_overlap] in E.
  - injection E as <-. split; [auto|intros b e []].
  - destruct (iv_overlaps cov b e); [discriminate|]. destruct (IH _ _ E) as [A B]. split.
    + intros x H. apply A. destruct (b <? e); [|exact H]. apply In_add. auto.
    + intros b' e' [H|H] L; [|auto]. injection H as -> ->. apply A. rewrite (proj2 (Z.ltb_lt b' e') L). apply In_add. auto.
Qed.
Lemma overlaps_false : forall t b e, iv_overlaps t b e = false -> forall p, b <= p < e -> ~ cover t p.
Proof.
  intros t b e H p P (i & A & B). unfold iv_overlaps in H. apply andb_false_iff in H. destruct H as [H|H].
  - apply Z.ltb_ge in H. lia.
  - assert (K : existsb (fun i => (iv_begin i <? e) && (b <? iv_end i)) t = true).
    { apply existsb_exists. exists i. split; [exact A|]. unfold covers in B. rewrite andb_true_iff, !Z.ltb_lt. lia. }
    congruence.
Qed.
Lemma cover_add : forall t b e p, b < e -> cover (iv_add t (mkIv b e 0)) p <-> cover t p \/ b <= p < e.
Proof.
  intros t b e p L. split.
  - intros (i & A & B). apply In_add in A. destruct A as [A| ->]; [left; exists i; auto|right; exact B].
  - intros [(i & A & B)|A]; [exists i; split; [apply In_add; auto|exact B]|]. exists (mkIv b e 0). split; [apply In_add; auto|exact A].
Qed.
Lemma chain_trans : forall b m e c r, d_begin c = b -> d_end c = m -> b < m -> chain m e r -> chain b e (c :: r).
Proof. intros b m e [v x y s] r A B L H. cbn in *. subst. now constructor. Qed.
Lemma fill_chain : forall input e kids b last cov cov', b <= last ->
  (forall k, In k kids -> d_begin k < d_end k /\ b <= d_begin k) -> (forall p, cover cov p <-> b <= p < last) ->
  check_overlap cov (map d_range (fill input last e kids)) = Ok cov' ->
  exists m, chain last m (fill input last e kids) /\ last <= m /\ e <= m /\ (forall p, cover cov' p <-> b <= p < m).
Proof.
  intros input e. induction kids as [|k r IH]; intros b last cov cov' L Hk C E.
  - cbn [fill] in *. destruct (last <? e) eqn:Q.
    + apply Z.ltb_lt in Q. cbn [map check_overlap] in E. change (d_range (terminal input last e)) with (last, e) in E. cbn [check_overlap] in E.
      destruct (iv_overlaps cov last e); [discriminate|]. rewrite (proj2 (Z.ltb_lt last e) Q) in E. injection E as <-.
      exists e. split; [constructor; [exact Q|constructor]|]. split; [lia|]. split; [lia|]. intros p. rewrite cover_add by exact Q. rewrite C. lia.
    + apply Z.ltb_ge in Q. cbn in E. injection E as <-. exists last. split; [constructor|]. split; [lia|]. split; [exact Q|exact C].
  - cbn [fill] in *. destruct (Hk k (or_introl eq_refl)) as [K1 K2].
    assert (Step : forall l2 cov2, d_begin k <= l2 -> b <= l2 -> l2 <= d_begin k \/ l2 <= l2 -> (forall p, cover cov2 p <-> b <= p < l2) ->
      check_overlap cov2 (map d_range (k :: fill input (d_end k) e r)) = Ok cov' ->
      exists m, l2 = d_begin k /\ chain l2 m (k :: fill input (d_end k) e r) /\ l2 <= m /\ e <= m /\ (forall p, cover cov' p <-> b <= p < m)).
    { intros l2 cov2 A1 A2 _ A3 A4. cbn [map check_overlap] in A4. change (d_range k) with (d_begin k, d_end k) in A4. cbv beta iota in A4.
      destruct (iv_overlaps cov2 (d_begin k) (d_end k)) eqn:O; [discriminate|]. rewrite (proj2 (Z.ltb_lt _ _) K1) in A4.
      assert (X : l2 = d_begin k).
      { destruct (Z.eq_dec l2 (d_begin k)); [assumption|exfalso].
        apply (overlaps_false _ _ _ O (d_begin k)); [lia|]. apply A3. lia. }
      destruct (IH b (d_end k) (iv_add cov2 (mkIv (d_begin k) (d_end k) 0)) cov') as (m & B1 & B2 & B3 & B4); [lia| | |exact A4|].
      - intros k' H. apply Hk. right. exact H.
      - intros p. rewrite cover_add by exact K1. rewrite A3. lia.
      - exists m. split; [exact X|]. split; [apply (chain_trans l2 (d_end k)); auto; lia|]. split; [lia|]. split; [exact B3|exact B4]. }
    destruct (last <? d_begin k) eqn:Q.
    + apply Z.ltb_lt in Q. cbn [app map] in E. change (d_range (terminal input last (d_begin k))) with (last, d_begin k) in E. cbn [check_overlap] in E.
      destruct (iv_overlaps cov last (d_begin k)); [discriminate|]. rewrite (proj2 (Z.ltb_lt _ _) Q) in E.
      destruct (Step (d_begin k) (iv_add cov (mkIv last (d_begin k) 0))) as (m & _ & B1 & B2 & B3 & B4); [lia|lia|lia| |exact E|].
      * intros p. rewrite cover_add by exact Q. rewrite C. lia.
      * exists m. split; [constructor; [exact Q|exact B1]|]. split; [lia|]. split; [exact B3|exact B4].
    + apply Z.ltb_ge in Q. cbn [app] in E. destruct (Step last cov) as (m & _ & B1 & B2 & B3 & B4); [lia|lia|lia|exact C|exact E|].
      exists m. auto.
Qed.
Lemma fill_in : forall input e kids last c, In c (fill input last e kids) ->
  In c kids \/ exists b e', b < e' /\ c = terminal input b e'.
Proof.
  intros input e. induction kids as [|k r IH]; intros last c H; cbn [fill] in H.
  - destruct (last <? e) eqn:Q; [|destruct H]. apply Z.ltb_lt in Q. destruct H as [<-|[]]. right. exists last, e. auto.
  - apply in_app_iff in H. destruct H as [H|[<-|H]].
    + destruct (last <? d_begin k) eqn:Q; [|destruct H]. apply Z.ltb_lt in Q. destruct H as [<-|[]]. right. eauto.
    + left. cbn. auto.
    + destruct (IH _ _ H) as [A|A]; [left; cbn; auto|auto].
Qed.
Lemma fill_kids : forall input e kids last k, In k kids -> In k (fill input last e kids).
Proof.
  intros input e. induction kids as [|j r IH]; intros last k H; [destruct H|]. cbn [fill]. apply in_app_iff. right.
  destruct H as [<-|H]; [left; reflexivity|right; auto].
Qed.
Lemma verify_all_in : forall l rem r, verify_all rem l = Ok r -> forall c, In c l -> exists a b, verify a c = Ok b.
Proof.
  induction l as [|x l IH]; intros rem r E c H; [destruct H|]. cbn [verify_all] in E. apply bind_ok in E. destruct E as (r' & A & E).
  destruct H as [<-|H]; [eauto|]. now apply (IH r' r).
Qed.
Lemma chain_bounds : forall b e cs, chain b e cs -> b <= e /\ forall c, In c cs -> b <= d_begin c /\ d_end c <= e.
Proof.
  intros b e cs H. induction H as [b|v b m e sub r L H [IH1 IH2]]; [split; [lia|intros c []]|]. split; [lia|].
  intros c [<-|A]; [cbn; lia|]. specialize (IH2 c A). lia.
Qed.
(** One node. *)
Lemma node_tiles : forall input rem rest v b e kids, (forall t, v <> VTerminal t) -> 0 <= b ->
  (forall k, In k kids -> d_begin k < d_end k) -> fill input b e kids <> [] ->
  verify rem (Done v b e (fill input b e kids)) = Ok rest ->
  (forall k, In k kids -> 0 <= d_begin k -> (exists x y, verify x k = Ok y) -> tiles input k) ->
  tiles input (Done v b e (fill input b e kids)).
Proof.
  intros input rem rest v b e kids Hv B Hk Nn E IH. rewrite verify_eq in E. apply bind_ok in E. destruct E as ([] & V & E).
  unfold verify_bounds in V. apply bind_ok in V. destruct V as (cov & C & V).
  destruct (check_overlap_in _ _ _ C) as [_ Cin].
  assert (Bounds : iv_first cov = b /\ iv_last cov = e).
  { destruct (map d_range (fill input b e kids)) eqn:M; [apply map_eq_nil in M; congruence|].
    destruct ((iv_first cov =? b) && (iv_last cov =? e)) eqn:Q; [|discriminate]. apply andb_true_iff in Q. rewrite !Z.eqb_eq in Q. exact Q. }
  destruct Bounds as [B1 B2].
  assert (Kb : forall k, In k kids -> d_begin k < d_end k /\ b <= d_begin k).
  { intros k H. split; [auto|]. assert (A : In (mkIv (d_begin k) (d_end k) 0) cov).
    { apply Cin; [|auto]. change (d_begin k, d_end k) with (d_range k). apply in_map. now apply fill_kids. }
    apply first_le in A. cbn in A. lia. }
  destruct (fill_chain input e kids b b [] cov) as (m & M1 & M2 & M3 & M4); [lia|exact Kb| |exact C|].
  { intros p. split; [intros (i & [] & _)|lia]. }
  assert (Lt : b < m).
  { destruct (fill input b e kids) as [|x l]; [congruence|]. inversion M1; subst. match goal with H : chain _ _ _ |- _ => apply chain_bounds in H end. lia. }
  assert (m = e).
  { assert (K : cover cov (m - 1)) by (apply M4; lia). apply cover_range in K. lia. }
  subst m. apply tiles_node; [exact Hv|lia|exact M1|].
  apply Forall_forall. intros c Hc.
  assert (Hb : 0 <= d_begin c) by (apply chain_bounds in M1; destruct M1 as [_ M1]; specialize (M1 c Hc); lia).
  assert (Va : exists x y, verify x c = Ok y).
  { apply bind_ok in E. destruct E as (r' & _ & E). now apply (verify_all_in _ _ _ E). }
  apply fill_in in Hc. destruct Hc as [Hc|(b' & e' & L & ->)]; [now apply IH|].
  cbn in Hb. apply tiles_leaf. lia.
Qed.
Lemma filled_tiles : forall input d, filled input d -> 0 <= d_begin d -> (exists x y, verify x d = Ok y) -> tiles input d.
Proof.
  intros input d. induction d as [v b e cs IH] using done_ind'. intros F B (x & y & V).
  inversion F as [n bb ? ? kids Fk Kk Nn E1]. subst. cbn in B.
  apply (node_tiles input x y); auto; [discriminate|]. intros k Hk. rewrite Forall_forall in IH, Fk.
  apply IH; [now apply fill_kids|auto].
Qed.

(** ** Spelling *)
Lemma skipn_plus : forall (A : Type) a b (l : list A), skipn (a + b) l = skipn b (skipn a l).
Proof. induction a as [|a IH]; intros b l; [reflexivity|]. destruct l; cbn; [now rewrite skipn_nil|apply IH]. Qed.
Lemma bytes_app : forall input b m e, 0 <= b -> b <= m -> m <= e -> bytes input b m ++ bytes input m e = bytes input b e.
Proof.
  intros input b m e A B C. unfold bytes. replace (Z.to_nat m) with (Z.to_nat b + Z.to_nat (m - b))%nat by lia.
  replace (Z.to_nat (e - b)) with (Z.to_nat (m - b) + Z.to_nat (e - m))%nat by lia.
  rewrite skipn_plus. generalize (skipn (Z.to_nat b) input) as l.
  generalize (Z.to_nat (e - m)) as k. induction (Z.to_nat (m - b)) as [|n IH]; intros k l; [reflexivity|].
  destruct l as [|x l]; cbn; [now rewrite firstn_nil|]. now rewrite IH.
Qed.
Lemma tiles_yield : forall input d, tiles input d -> yield (plain d) = bytes input (d_begin d) (d_end d).
Proof.
  intros input d. induction d as [v b e cs IH] using done_ind'. intros T.
  inversion T as [? ? L E1|? ? ? ? Hv L C Ft]; subst; [reflexivity|]. cbn [plain d_begin d_end].
  assert (Y : concat (map yield (map plain cs)) = bytes input b e).
  { clear T Hv. destruct L as [L _]. revert IH Ft. induction C as [b|w b m e sub r Lt C IHc]; intros IH Ft.
    - unfold bytes. rewrite Z.sub_diag. reflexivity.
    - inversion_clear IH as [|? ? I1 I2]. inversion_clear Ft as [|? ? F1 F2]. cbn [map concat]. rewrite (I1 F1). cbn [d_begin d_end].
      rewrite IHc; auto; [|lia]. apply bytes_app; try lia. apply chain_bounds in C. lia. }
  cbn [yield]. destruct v; [exact Y|exact Y|]. now destruct (Hv b0).
Qed.
Lemma bytes_all : forall input e, Z.of_nat (length input) <= e -> bytes input 0 e = input.
Proof. intros input e H. unfold bytes. cbn [skipn Z.to_nat]. apply firstn_all2. lia. Qed.

(** ** The first pass *)
Definition fine (t : intervals) : Prop := forall i, In i t -> 0 <= iv_begin i < iv_end i.
Lemma fine_proper : forall t, fine t -> proper t.
Proof. intros t H i A. specialize (H i A). lia. Qed.
Lemma fine_last : forall t, fine t -> 0 <= iv_last t.
Proof. intros t H. destruct t as [|i r] eqn:E; [cbn; lia|]. rewrite <- E in *. destruct (last_in t) as (j & A & B); [congruence|]. specialize (H j A). lia. Qed.
Lemma fine_first : forall t, fine t -> 0 <= iv_first t.
Proof. intros t H. destruct t as [|i r] eqn:E; [cbn; lia|]. rewrite <- E in *. destruct (first_in t) as (j & A & B); [congruence|]. specialize (H j A). lia. Qed.
Lemma fine_chop : forall t b e, fine t -> 0 <= e -> fine (iv_chop t b e).
Proof.
  intros t b e H E i A. apply In_chop in A. destruct A as [(A & _)|[(j & A & B & C & ->)|(j & A & B & C & ->)]]; [auto| |]; specialize (H j A); cbn; lia.
Qed.
Lemma best_point_nonneg : forall ws ps best, (forall p, In p ps -> 0 <= p) -> 0 <= fst best -> 0 <= fst (best_point ws ps best).
Proof.
  induction ps as [|p ps IH]; intros best H B; cbn; [exact B|]. apply IH; [intros q A; apply H; cbn; auto|].
  assert (0 <= p) by (apply H; cbn; auto). destruct (snd best) as [m|]; [destruct (badness 0 p ws <? m)|]; assumption.
Qed.
Lemma z_range_nonneg : forall n b p, 0 <= b -> In p (z_range b n) -> 0 <= p.
Proof. induction n as [|n IH]; intros b p B H; [destruct H|]. destruct H as [<-|H]; [exact B|]. apply (IH (b + 1)); [lia|exact H]. Qed.
Lemma deconflict_fine : forall ours theirs a b, fine ours -> fine theirs -> deconflict_sibling ours theirs = Ok (a, b) -> fine a /\ fine b.
Proof.
  intros ours theirs a b F G E. unfold deconflict_sibling, best_partition in E. apply bind_ok in E. destruct E as (p & P & E).
  apply bind_ok in P. destruct P as (w & _ & P). injection P as <-. pose proof (fine_last ours F). pose proof (fine_first theirs G). destruct w as [ws|].
  - assert (0 <= fst (best_point ws (z_range 0 (length ws + 1)) (iv_last ours, None))).
    { apply best_point_nonneg; [|exact H]. intros q. apply z_range_nonneg. lia. }
    injection E as <- <-. split; apply fine_chop; auto. lia.
  - injection E as <- <-. auto.
Qed.
Fixpoint next_all (c : node) (r : list node) : Res (list node) :=
  match r with
  | [] => Ok [c]
  | s :: r' => do p <- deconflict_sibling (n_ivs c) (n_ivs s);
               do rest <- next_all (set_ivs s (snd p)) r'; Ok (set_ivs c (fst p) :: rest)
  end.
Lemma siblings_eq : forall cs, siblings cs = match cs with [] => Ok [] | c :: r => next_all c r end.
Proof. destruct cs; reflexivity. Qed.
(** The tree of a node. *)
Fixpoint ntree (n : node) : tree := let 'INode v _ cs := n in Node v (map ntree cs).
Lemma set_ivs_ntree : forall n i, ntree (set_ivs n i) = ntree n.
Proof. intros [v j cs] i. reflexivity. Qed.
Lemma set_ivs_ivs : forall n i, n_ivs (set_ivs n i) = i.
Proof. intros [v j cs] i. reflexivity. Qed.
Lemma set_ivs_ev : forall n i, ev_node n -> ev_node (set_ivs n i).
Proof. intros [v j cs] i H. inversion H; subst. now constructor. Qed.
Lemma next_all_ok : forall r c l, next_all c r = Ok l -> Forall (fun n => fine (n_ivs n)) (c :: r) ->
  Forall (fun n => fine (n_ivs n)) l /\ map ntree l = map ntree (c :: r) /\ (Forall ev_node (c :: r) -> Forall ev_node l).
Proof.
  induction r as [|s r IH]; intros c l E F; cbn [next_all] in E.
  - injection E as <-. auto.
  - inversion_clear F as [|? ? Fc Fr]. inversion_clear Fr as [|? ? Fs Fr'].
    apply bind_ok in E. destruct E as ([a b] & D & E). cbn [fst snd] in E. apply bind_ok in E. destruct E as (rest & R & E). injection E as <-.
    destruct (deconflict_fine _ _ _ _ Fc Fs D) as [Fa Fb].
    destruct (IH _ _ R) as (A & B & C); [constructor; [now rewrite set_ivs_ivs|exact Fr']|]. split; [|split].
    + constructor; [now rewrite set_ivs_ivs|exact A].
    + cbn [map] in *. rewrite B, !set_ivs_ntree. reflexivity.
    + intros Ev. inversion_clear Ev as [|? ? E1 E2]. inversion_clear E2 as [|? ? E3 E4]. constructor; [now apply set_ivs_ev|].
      apply C. constructor; [now apply set_ivs_ev|exact E4].
Qed.
Lemma siblings_ok : forall cs l, siblings cs = Ok l -> Forall (fun n => fine (n_ivs n)) cs ->
  Forall (fun n => fine (n_ivs n)) l /\ map ntree l = map ntree cs /\ (Forall ev_node cs -> Forall ev_node l).
Proof.
  intros [|c r] l E F; rewrite siblings_eq in E; [injection E as <-; auto|]. now apply next_all_ok.
Qed.
Lemma fold_update_in : forall (cs : list node) t x, In x (fold_left (fun t c => iv_update t (n_ivs c)) cs t) <->
  In x t \/ exists c, In c cs /\ In x (n_ivs c).
Proof.
  induction cs as [|c r IH]; intros t x; cbn [fold_left].
  - split; [auto|]. intros [A|(c & [] & _)]. exact A.
  - rewrite IH, In_update. split.
    + intros [[A|A]|(d & A & B)]; [auto|right; exists c; cbn; auto|right; exists d; cbn; auto].
    + intros [A|(d & [<-|A] & B)]; [auto|auto|right; eauto].
Qed.
Lemma split_merge_cover : forall t p, cover (iv_merge true (iv_split t)) p <-> cover t p.
Proof. intros t p. destruct (merge_ok true (iv_split t) (split_proper t)) as (_ & _ & C). rewrite C. apply split_cover. Qed.
Lemma split_merge_fine : forall t, fine t -> fine (iv_merge true (iv_split t)).
Proof.
  intros t F i A. destruct (merge_ok true (iv_split t) (split_proper t)) as (P & _ & C). specialize (P i A). split; [|exact P].
  assert (K : cover t (iv_begin i)) by (apply split_merge_cover; exists i; unfold covers; split; [exact A|lia]).
  destruct K as (j & B & D). specialize (F j B). unfold covers in D. lia.
Qed.
Lemma pass_ok : forall v own cs n, bottom_up_pass v own cs = Ok n -> fine own -> Forall (fun c => fine (n_ivs c)) cs ->
  exists cs', n = INode v (n_ivs n) cs' /\ fine (n_ivs n) /\ Forall (fun c => fine (n_ivs c)) cs' /\
    map ntree cs' = map ntree (filter (fun c => n_first c <? n_last c) cs) /\ (Forall ev_node cs -> Forall ev_node cs') /\
    (forall p, cover own p -> cover (n_ivs n) p).
Proof.
  intros v own cs n E F Fc. unfold bottom_up_pass in E. apply bind_ok in E. destruct E as (cs' & S & E). apply bind_ok in E. destruct E as (cov & _ & E).
  injection E as <-. cbn [n_ivs].
  assert (Ff : Forall (fun c => fine (n_ivs c)) (filter (fun c => n_first c <? n_last c) cs)).
  { apply Forall_forall. intros c A. apply filter_In in A. rewrite Forall_forall in Fc. apply Fc. apply A. }
  destruct (siblings_ok _ _ S Ff) as (A & B & C). exists cs'. split; [reflexivity|].
  assert (Fall : fine (fold_left (fun t c => iv_update t (n_ivs c)) cs' own)).
  { intros i H. apply fold_update_in in H. destruct H as [H|(c & H & I)]; [auto|]. rewrite Forall_forall in A. now apply (A c). }
  split; [now apply split_merge_fine|]. split; [exact A|]. split; [exact B|]. split.
  - intros Ev. apply C. apply Forall_forall. intros c H. apply filter_In in H. rewrite Forall_forall in Ev. apply Ev. apply H.
  - intros p (i & H & I). apply split_merge_cover. exists i. split; [|exact I]. apply fold_update_in. auto.
Qed.

(** ** Pruning *)
Scheme pruned_mind := Induction for pruned Sort Prop with pruned_list_mind := Induction for pruned_list Sort Prop.
Section TreeInd.
  Variable P : tree -> Prop.
  Hypothesis H : forall v cs, Forall P cs -> P (Node v cs).
  Fixpoint tree_ind'' (n : tree) : P n :=
    match n with
    | Node v cs => H v cs ((fix go (l : list tree) : Forall P l :=
        match l with [] => Forall_nil _ | c :: r => Forall_cons _ (tree_ind'' c) (go r) end) cs)
    end.
End TreeInd.
Lemma pruned_list_refl : forall l, Forall (fun t => pruned t t) l -> pruned_list l l.
Proof. induction l as [|t l IH]; intros H; [constructor|]. inversion_clear H. apply pruned_keep; auto. Qed.
Lemma pruned_refl : forall t, pruned t t.
Proof. intros t. induction t as [v cs IH] using tree_ind''. constructor. now apply pruned_list_refl. Qed.
Lemma pruned_trans : forall a b, pruned a b -> forall c, pruned b c -> pruned a c.
Proof.
  apply (pruned_mind (fun a b _ => forall c, pruned b c -> pruned a c) (fun l m _ => forall k, pruned_list m k -> pruned_list l k)).
  - intros v cs cs' _ IH c H. inversion H; subst. constructor. now apply IH.
  - intros k H. exact H.
  - intros t r r' _ IH k H. apply pruned_drop. now apply IH.
  - intros t t' r r' _ IHt _ IHr k H. inversion H; subst.
    + apply pruned_drop. now apply IHr.
    + apply pruned_keep; [now apply IHt|now apply IHr].
Qed.
Lemma pruned_list_trans : forall l m, pruned_list l m -> forall k, pruned_list m k -> pruned_list l k.
Proof.
  intros l m H k K. assert (A : pruned (Node VStart l) (Node VStart k)).
  { apply (pruned_trans _ (Node VStart m)); constructor; assumption. }
  now inversion A.
Qed.
Lemma pruned_filter : forall (f : node -> bool) l, pruned_list (map ntree l) (map ntree (filter f l)).
Proof.
  induction l as [|c l IH]; cbn; [constructor|]. destruct (f c); cbn.
  - apply pruned_keep; [apply pruned_refl|exact IH].
  - now apply pruned_drop.
Qed.
Lemma pruned_app : forall a b c d, pruned_list a b -> pruned_list c d -> pruned_list (a ++ c) (b ++ d).
Proof. intros a b c d H K. induction H; cbn; [exact K|now apply pruned_drop|now apply pruned_keep]. Qed.

Inductive fine_node : node -> Prop :=
| fine_node_intro : forall v ivs cs, fine ivs -> Forall fine_node cs -> fine_node (INode v ivs cs).
Lemma own_fine : forall len v ivs own, own_ivs len v ivs = Ok own -> fine ivs -> fine own.
Proof.
  intros len v ivs own E F. destruct v; cbn in E; try (injection E as <-; exact F).
  destruct (0 <? len) eqn:L; [|discriminate]. apply Z.ltb_lt in L. injection E as <-. intros i A. apply In_add in A.
  destruct A as [A| ->]; [auto|cbn; lia].
Qed.
Lemma bottom_up_ok : forall len n, fine_node n -> forall n', bottom_up len n = Ok n' ->
  fine (n_ivs n') /\ pruned (ntree n) (ntree n') /\ (ev_node n -> ev_node n').
Proof.
  intros len n. induction n as [v ivs cs IH] using node_ind'. intros F n' E. inversion F as [? ? ? Fi Fc]; subst.
  rewrite bottom_up_eq in E. apply bind_ok in E. destruct E as (cs' & U & E). apply bind_ok in E. destruct E as (own & O & E).
  assert (A : Forall (fun c => fine (n_ivs c)) cs' /\ pruned_list (map ntree cs) (map ntree cs') /\ (Forall ev_node cs -> Forall ev_node cs')).
  { clear E O F. revert cs' U. induction cs as [|c r IHr]; intros cs' U; cbn [up_all] in U; [injection U as <-; repeat split; auto; constructor|].
    inversion_clear IH as [|? ? I1 I2]. inversion_clear Fc as [|? ? F1 F2].
    apply bind_ok in U. destruct U as (c' & C & U). apply bind_ok in U. destruct U as (r' & R & U). injection U as <-.
    destruct (I1 F1 c' C) as (A1 & A2 & A3). destruct (IHr I2 F2 r' R) as (B1 & B2 & B3). split; [|split].
    - now constructor.
    - cbn [map]. now apply pruned_keep.
    - intros Ev. inversion_clear Ev. constructor; auto. }
  destruct A as (A1 & A2 & A3). destruct (pass_ok _ _ _ _ E (own_fine _ _ _ _ O Fi) A1) as (cs2 & B1 & B2 & _ & B4 & B5 & _).
  rewrite B1. cbn [n_ivs ntree]. split; [exact B2|]. split.
  - constructor. rewrite B4. apply (pruned_list_trans _ _ A2). apply pruned_filter.
  - intros Ev. inversion Ev; subst. constructor. now apply B5, A3.
Qed.
Lemma fill_events : forall input e kids last, (forall k, In k kids -> is_leaf k = false) ->
  flat_map (fun c => if is_leaf c then [] else [events c]) (fill input last e kids) = map events kids.
Proof.
  intros input e. induction kids as [|k r IH]; intros last H; cbn [fill].
  - destruct (last <? e); reflexivity.
  - rewrite flat_map_app. cbn [flat_map map]. rewrite (H k) by (cbn; auto). rewrite IH by (intros j A; apply H; cbn; auto).
    destruct (last <? d_begin k); reflexivity.
Qed.
Lemma finish_all_pruned : forall input b e cs ds,
  Forall (fun c => ev_node c -> forall i d, finish input c i = Ok d -> pruned (ntree c) (plain (events d)) /\ is_leaf d = false) cs ->
  Forall ev_node cs -> finish_all input b e cs = Ok ds ->
  pruned_list (map ntree cs) (map plain (map events ds)) /\ forall k, In k ds -> is_leaf k = false.
Proof.
  induction cs as [|c r IH]; intros ds H Ev E; cbn [finish_all] in E; [injection E as <-; split; [constructor|intros k []]|].
  inversion_clear H as [|? ? Hc Hr]. inversion_clear Ev as [|? ? Ec Er].
  apply bind_ok in E. destruct E as (i & _ & E). destruct (iv_last i <=? iv_first i) eqn:L.
  - destruct (IH ds Hr Er E) as [A B]. split; [now apply pruned_drop|exact B].
  - apply bind_ok in E. destruct E as (d & D & E). apply bind_ok in E. destruct E as (ds' & F & E). injection E as <-.
    destruct (IH ds' Hr Er F) as [A B]. destruct (Hc Ec i d D) as [C1 C2]. split.
    + cbn [map]. now apply pruned_keep.
    + intros k [<-|K]; auto.
Qed.
Lemma drop_all : forall l, pruned_list l [].
Proof. induction l; [constructor|now apply pruned_drop]. Qed.
Lemma finish_pruned : forall input n, ev_node n -> forall i d, finish input n i = Ok d -> pruned (ntree n) (plain (events d)) /\ is_leaf d = false.
Proof.
  intros input n. induction n as [v i0 cs IH] using node_ind'. intros Ev i d E. inversion Ev as [nm bb ? ? Ec E1]; subst.
  rewrite finish_eq in E. apply bind_ok in E. destruct E as (kids & K & E).
  destruct (fill input (iv_first i) (iv_last i) kids) as [|x r] eqn:F; [discriminate|]. injection E as <-. rewrite <- F. clear F x r.
  split; [|reflexivity].
  assert (A : pruned_list (map ntree cs) (map plain (map events kids)) /\ forall k, In k kids -> is_leaf k = false).
  { destruct (iv_last i <=? iv_first i).
    - injection K as <-. split; [apply drop_all|intros k []].
    - now apply (finish_all_pruned input (iv_first i) (iv_last i)). }
  cbn [ntree events plain]. rewrite (fill_events input (iv_last i) kids (iv_first i) (proj2 A)). constructor. apply A.
Qed.

(** ** The tree of a trace *)
Lemma consumed_in : forall uid rs i, In i (consumed uid rs) <-> exists o l, In (o, l) rs /\ i = mkIv o (o + l) uid.
Proof.
  intros uid rs i. unfold consumed. rewrite In_update, in_map_iff. split.
  - intros [[]|([o l] & <- & A)]. exists o, l. auto.
  - intros (o & l & A & ->). right. exists (o, l). auto.
Qed.
Lemma function_ok : forall f, sound (regions_of f) -> ev_node (function_node f) /\ fine_node (function_node f) /\ pruned (calls f) (ntree (function_node f)).
Proof.
  intros f. induction f as [name bs IH] using call_ind. intros S. cbn [function_node calls ntree].
  assert (K : Forall (fun c => ev_node c /\ fine_node c) (flat_map (fun b => match b with (bb, uid, regions, called) =>
      INode (VEvent bb true) (consumed uid regions) [] ::
      match called with Some g => if touched g then [function_node g] else [] | None => [] end end) bs) /\
    pruned_list (flat_map (fun b => match b with (bb, _, _, called) =>
      Node (VEvent bb true) [] :: match called with Some g => [calls g] | None => [] end end) bs)
      (map ntree (flat_map (fun b => match b with (bb, uid, regions, called) =>
      INode (VEvent bb true) (consumed uid regions) [] ::
      match called with Some g => if touched g then [function_node g] else [] | None => [] end end) bs))).
  { cbn [regions_of] in S. induction bs as [|[[[bb uid] rs] called] r IHr]; cbn [flat_map]; [split; constructor|].
    destruct IHr as [A B].
    { intros bb' uid' rs' g H. apply (IH bb' uid' rs' g). right. exact H. }
    { intros o l H. apply S. cbn [flat_map]. apply in_app_iff. auto. }
    assert (L : ev_node (INode (VEvent bb true) (consumed uid rs) []) /\ fine_node (INode (VEvent bb true) (consumed uid rs) [])).
    { split; [constructor; constructor|]. constructor; [|constructor]. intros i H. apply consumed_in in H. destruct H as (o & l & H & ->).
      destruct (S o l) as [S1 S2]; [cbn [flat_map]; apply in_app_iff; left; apply in_app_iff; auto|]. cbn. lia. }
    destruct called as [g|].
    - destruct (IH bb uid rs g (or_introl eq_refl)) as (G1 & G2 & G3).
      { intros o l H. apply S. cbn [flat_map]. apply in_app_iff. left. apply in_app_iff. auto. }
      destruct (touched g); cbn [app map ntree].
      + split; [constructor; [exact L|]; constructor; [split; assumption|exact A]|]. apply pruned_keep; [apply pruned_refl|]. apply pruned_keep; [exact G3|exact B].
      + split; [constructor; assumption|]. apply pruned_keep; [apply pruned_refl|]. apply pruned_drop. exact B.
    - cbn [app map ntree]. split; [constructor; assumption|]. apply pruned_keep; [apply pruned_refl|exact B]. }
  destruct K as [K1 K2]. split; [|split].
  - constructor. apply (Forall_impl _ (fun c H => proj1 H) K1).
  - constructor; [intros i []|]. apply (Forall_impl _ (fun c H => proj2 H) K1).
  - constructor. exact K2.
Qed.
Lemma filled_event : forall input d, filled input d -> event_tree (plain d).
Proof.
  intros input d. induction d as [v b e cs IH] using done_ind'. intros F. inversion F as [n bb ? ? kids Fk Kk Nn E1]; subst.
  cbn [plain]. apply event_node.
  - destruct (fill input b e kids); [congruence|discriminate].
  - apply Forall_map. rewrite Forall_forall in *. intros c Hc. pose proof Hc as Hc'. apply fill_in in Hc. destruct Hc as [Hc|(b' & e' & L & ->)].
    + apply IH; [exact Hc'|auto].
    + constructor.
Qed.

Theorem extract_sound : forall input f d, sound (regions_of f) -> trace_to_non_generalized_tree input f = Ok d ->
  tiles input d /\ d_begin d = 0 /\ Z.of_nat (length input) <= d_end d /\ yield (plain d) = input /\ input_tree (plain d) /\
  pruned (Node VStart [calls f]) (plain (events d)).
Proof.
  intros input f d S E. destruct (function_ok f S) as (Ev & Fn & Pr).
  unfold trace_to_non_generalized_tree, extract, trace_tree in E.
  apply bind_ok in E. destruct E as (t1 & U & E). apply bind_ok in E. destruct E as (d' & D & E). apply bind_ok in E. destruct E as (rest & V & E).
  injection E as ->. rewrite bottom_up_eq in U. apply bind_ok in U. destruct U as (cs' & U & U1). cbn [up_all] in U.
  apply bind_ok in U. destruct U as (fn & Uf & U). cbn [bind] in U. injection U as <-.
  apply bind_ok in U1. destruct U1 as (own & O & U1).
  destruct (bottom_up_ok _ _ Fn _ Uf) as (A1 & A2 & A3).
  assert (Fo : fine own) by (apply (own_fine _ _ _ _ O); intros i []).
  destruct (pass_ok _ _ _ _ U1 Fo) as (cs2 & B1 & B2 & B3 & B4 & B5 & B6); [constructor; [exact A1|constructor]|].
  specialize (B5 (Forall_cons _ (A3 Ev) (Forall_nil _))).
  cbn in O. destruct (0 <? Z.of_nat (length input)) eqn:L; [|discriminate]. apply Z.ltb_lt in L. injection O as <-.
  assert (C0 : cover (n_ivs t1) 0) by (apply B6; exists (mkIv 0 (Z.of_nat (length input)) 0); unfold covers; cbn; split; [auto|lia]).
  assert (C1 : cover (n_ivs t1) (Z.of_nat (length input) - 1)) by (apply B6; exists (mkIv 0 (Z.of_nat (length input)) 0); unfold covers; cbn; split; [auto|lia]).
  apply cover_range in C0. apply cover_range in C1. pose proof (fine_first _ B2).
  destruct (finish_begin _ _ _ _ D) as [D1 D2].
  rewrite B1 in D. rewrite finish_eq in D. change (n_ivs (INode VStart (n_ivs t1) cs2)) with (n_ivs t1) in D.
  apply bind_ok in D. destruct D as (kids & K & D).
  destruct (fill input (iv_first (n_ivs t1)) (iv_last (n_ivs t1)) kids) as [|x r] eqn:F; [discriminate|]. injection D as D. rewrite <- F in D.
  assert (Nn : fill input (iv_first (n_ivs t1)) (iv_last (n_ivs t1)) kids <> []) by (rewrite F; discriminate). clear F x r.
  destruct (iv_last (n_ivs t1) <=? iv_first (n_ivs t1)) eqn:Q; [apply Z.leb_le in Q; lia|].
  destruct (fun H => finish_all_filled input _ _ cs2 kids H B5 K) as [F1 F2]; [apply Forall_forall; intros c _; apply finish_filled|].
  destruct (fun H => finish_all_pruned input _ _ cs2 kids H B5 K) as [G1 G2]; [apply Forall_forall; intros c _; apply finish_pruned|].
  assert (T : tiles input d).
  { subst d. apply (node_tiles input input rest); auto; [discriminate|]. rewrite Forall_forall in F1. intros k Hk. apply filled_tiles. auto. }
  assert (Y : yield (plain d) = input).
  { rewrite (tiles_yield input d T), D1, D2. replace (iv_first (n_ivs t1)) with 0 by lia. apply bytes_all. lia. }
  repeat apply conj; auto; try lia.
  - subst d. cbn [plain]. apply input_start.
    + destruct (fill _ _ _ _); [congruence|discriminate].
    + apply Forall_map. rewrite Forall_forall in *. intros c Hc. apply fill_in in Hc. destruct Hc as [Hc|(b' & e' & Lt & ->)]; [|constructor].
      apply (filled_event input). auto.
  - subst d. cbn [events plain]. rewrite (fill_events input _ kids _ G2). constructor.
    apply (pruned_list_trans _ (map ntree [function_node f])); [cbn; apply pruned_keep; [exact Pr|constructor]|].
    apply (pruned_list_trans _ (map ntree [fn])); [cbn; apply pruned_keep; [exact A2|constructor]|].
    apply (pruned_list_trans _ (map ntree cs2)); [|exact G1]. rewrite B4. apply pruned_filter.
Qed.

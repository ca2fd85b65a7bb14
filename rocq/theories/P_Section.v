From Coq Require Import Arith NArith List Bool Lia.
From Verif Require Import M_Base M_Memory M_Section S_Section P_Base P_Memory.
Import ListNotations.
Open Scope N_scope.

(** ** Allocation *)
Lemma sect_write_spec s n : section_ok s -> n < two64 ->
  sect_write s n = if wit s + n <=? send s
                   then Some (wit s, mkSect (sbeg s) (send s) (wit s + n)) else None.
Proof.
  intros (A & B & C) Hn. unfold sect_write, add64.
  destruct (N.leb_spec (wit s + n) (send s)) as [L|L].
  - rewrite N.mod_small by lia.
    destruct (N.ltb_spec (send s) (wit s + n)); [lia|].
    destruct (N.ltb_spec (wit s + n) (wit s)); [lia|]. reflexivity.
  - destruct (N.ltb_spec (wit s + n) two64) as [S|S].
    + rewrite N.mod_small by lia. destruct (N.ltb_spec (send s) (wit s + n)); [reflexivity|lia].
    + replace (wit s + n) with ((wit s + n - two64) + 1 * two64) by lia.
      rewrite N.mod_add by (unfold two64; lia). rewrite N.mod_small by lia.
      destruct (N.ltb_spec (wit s + n - two64) (wit s)); [|lia]. now rewrite orb_true_r.
Qed.

Lemma sect_write_some s n p s' : section_ok s -> n < two64 -> sect_write s n = Some (p, s') ->
  p = wit s /\ s' = mkSect (sbeg s) (send s) (wit s + n) /\ wit s + n <= send s /\ section_ok s'.
Proof.
  intros K Hn E. rewrite sect_write_spec in E by assumption.
  destruct (N.leb_spec (wit s + n) (send s)); [|discriminate]. inversion E; subst.
  repeat split; cbn; destruct K as (A & B & C); lia.
Qed.

Lemma sect_write_none s n : section_ok s -> n < two64 ->
  (sect_write s n = None <-> send s < wit s + n).
Proof.
  intros K Hn. rewrite sect_write_spec by assumption.
  destruct (N.leb_spec (wit s + n) (send s)); split; intros; try discriminate; auto; lia.
Qed.

Lemma requests_spec sizes : forall s l s', section_ok s -> Forall (fun n => n < two64) sizes ->
  requests s sizes = (l, s') ->
  section_ok s' /\ sbeg s' = sbeg s /\ send s' = send s /\ wit s <= wit s' /\
  tiles (wit s) (wit s') (granted l) /\ map fst l = sizes.
Proof.
  induction sizes as [|n sizes IH]; intros s l s' K F R.
  - cbn in R. inversion R; subst. cbn. split; auto. repeat split; auto. lia.
  - inversion F; subst. cbn [requests] in R.
    destruct (sect_write s n) as [[p s1]|] eqn:E.
    + destruct (requests s1 sizes) as [l1 s2] eqn:E2. inversion R; subst.
      destruct (sect_write_some _ _ _ _ K H1 E) as (-> & -> & Fit & K1).
      destruct (IH _ _ _ K1 H2 E2) as (A & B & C & D & T & M). cbn in *.
      repeat split; auto; try lia; try congruence. destruct A as (A1 & A2 & A3); lia.
      all: try apply A.
    + destruct (requests s sizes) as [l1 s2] eqn:E2. inversion R; subst.
      destruct (IH _ _ _ K H2 E2) as (A & B & C & D & T & M). cbn.
      repeat split; auto; try apply A. congruence.
Qed.

Lemma tiles_lower a b l : tiles a b l -> forall p n, In (p, n) l -> a <= p /\ p + n <= b.
Proof.
  revert a. induction l as [|[q k] l IH]; intros a T p n I; [contradiction|].
  cbn in T. destruct T as [-> T].
  assert (Hb : a + k <= b).
  { clear - T. revert T. generalize (a + k). induction l as [|[q j] l IH]; cbn; intros c T; [lia|].
    destruct T as [-> T]. apply IH in T. lia. }
  destruct I as [I|I].
  - inversion I; subst. lia.
  - destruct (IH _ T p n I). lia.
Qed.

(** ** Content of a section *)
Definition zeros (n : N) : list N := repeat 0 (N.to_nat n).
Lemma len_zeros n : len (zeros n) = n.
Proof. unfold zeros, len. rewrite repeat_length. lia. Qed.
Lemma get_zeros n i : i < n -> get (zeros n) i = Some 0.
Proof. intros H. unfold get, zeros. apply nth_error_repeat. lia. Qed.

Definition holds (m : mem) (s : sect) (c : list N) : Prop :=
  section_ok s /\ wit s = sbeg s + len c /\ load m (sbeg s) (len c) = c /\
  forall a, wit s <= a -> a < send s -> m a = 0.

(** Same memory outside of a section. *)
Definition frame (s : sect) (m m' : mem) : Prop :=
  forall a, a < sbeg s \/ send s <= a -> m' a = m a.

Lemma frame_refl s m : frame s m m.
Proof. intros a _. reflexivity. Qed.
Lemma frame_trans s m m' m'' : frame s m m' -> frame s m' m'' -> frame s m m''.
Proof. intros A B a H. rewrite B, A; auto. Qed.

Lemma holds_content m s c : holds m s c -> content m s = c.
Proof.
  intros (K & W & L & _). unfold content, sect_size. rewrite W.
  replace (sbeg s + len c - sbeg s) with (len c) by lia. exact L.
Qed.

Lemma holds_other m m' s s' c : holds m s c -> frame s' m m' ->
  send s <= sbeg s' \/ send s' <= sbeg s -> holds m' s c.
Proof.
  intros ((K1 & K2 & K3) & W & L & Z) F D. repeat split; auto.
  - rewrite <- L at 2. apply load_ext. intros x X1 X2. apply F. lia.
  - intros a A1 A2. rewrite F by lia. auto.
Qed.

Lemma holds_new m b e : b <= e -> e < two64 -> (forall a, b <= a -> a < e -> m a = 0) ->
  holds m (sect_new b e) [].
Proof. intros A B Z. repeat split; cbn; auto; try lia. Qed.

Lemma holds_append m s c n p s' bs : holds m s c -> n < two64 -> sect_write s n = Some (p, s') ->
  len bs <= n ->
  p = sbeg s + len c /\ sbeg s' = sbeg s /\ send s' = send s /\
  holds (store m p bs) s' (c ++ bs ++ zeros (n - len bs)) /\ frame s m (store m p bs) /\
  sbeg s + len c + n <= send s.
Proof.
  intros (K & W & L & Z) Hn E B. destruct (sect_write_some _ _ _ _ K Hn E) as (-> & -> & Fit & K').
  cbn. split; [exact W|]. split; [reflexivity|]. split; [reflexivity|]. split; [|split].
  - split; [exact K'|]. cbn. rewrite !len_app, len_zeros. split; [lia|]. split.
    + rewrite load_app, load_app. f_equal; [|f_equal].
      * rewrite load_store_other by lia. exact L.
      * rewrite <- W. apply load_store.
      * rewrite load_store_other by lia.
        apply list_ext. intros i. destruct (N.ltb_spec i (n - len bs)).
        -- rewrite get_load, get_zeros by assumption. f_equal. apply Z; lia.
        -- assert (G1 : get (load m (sbeg s + len c + len bs) (n - len bs)) i = None)
             by (apply get_none; rewrite len_load; lia).
           assert (G2 : get (zeros (n - len bs)) i = None) by (apply get_none; rewrite len_zeros; lia).
           congruence.
    + intros a A1 A2. rewrite store_other by lia. apply Z; lia.
  - intros a A. apply store_other. destruct K as (K1 & K2 & K3). lia.
  - lia.
Qed.

Lemma zeros_0 : zeros 0 = [].
Proof. reflexivity. Qed.

Lemma construct_some m s c bs p m' s' : holds m s c -> len bs < two64 ->
  construct m s bs = Some (p, m', s') ->
  p = sbeg s + len c /\ sbeg s' = sbeg s /\ send s' = send s /\ holds m' s' (c ++ bs) /\
  frame s m m' /\ sbeg s + len c + len bs <= send s.
Proof.
  intros H B E. unfold construct in E. destruct (sect_write s (len bs)) as [[q s1]|] eqn:W; [|discriminate].
  inversion E; subst. destruct (holds_append m s c (len bs) p s' bs H B W ltac:(lia)) as (A1 & A2 & A3 & A4 & A5 & A6).
  rewrite N.sub_diag, zeros_0, app_nil_r in A4. auto 10.
Qed.

Lemma construct_none m s c bs : holds m s c -> len bs < two64 ->
  (construct m s bs = None <-> send s < sbeg s + len c + len bs).
Proof.
  intros (K & W & _) B. unfold construct. rewrite <- W, <- (sect_write_none s (len bs) K B).
  destruct (sect_write s (len bs)) as [[q s1]|]; split; congruence.
Qed.

(** Overwriting a part of the content in place. *)
Lemma holds_update m s a x b y : holds m s (a ++ x ++ b) -> len y = len x ->
  holds (store m (sbeg s + len a) y) s (a ++ y ++ b) /\ frame s m (store m (sbeg s + len a) y).
Proof.
  intros (K & W & L & Z) E. rewrite !len_app in *. split.
  - split; [exact K|]. rewrite !len_app, E. split; [lia|]. split.
    + rewrite load_app, load_app in L.
      assert (La := f_equal (firstn (length a)) L).
      assert (A : load m (sbeg s) (len a) = a).
      { rewrite !firstn_app in La. assert (Ln := len_load m (sbeg s) (len a)). unfold len in Ln at 1.
        replace (length a - length (load m (sbeg s) (len a)))%nat with O in La by (unfold len in *; lia).
        rewrite Nat.sub_diag in La. cbn [firstn] in La. rewrite !app_nil_r in La.
        rewrite firstn_all2, firstn_all in La by (unfold len in *; lia). exact La. }
      rewrite A in L. apply app_inv_head in L.
      assert (Lx := f_equal (skipn (length x)) L).
      assert (Bq : load m (sbeg s + len a + len x) (len b) = b).
      { rewrite !skipn_app in Lx. assert (Ln := len_load m (sbeg s + len a) (len x)). unfold len in Ln at 1.
        replace (length x - length (load m (sbeg s + len a) (len x)))%nat with O in Lx by (unfold len in *; lia).
        rewrite Nat.sub_diag in Lx. cbn [skipn] in Lx. rewrite skipn_all2, skipn_all in Lx by (unfold len in *; lia).
        exact Lx. }
      replace (len a + (len x + len b)) with (len a + (len y + len b)) by lia.
      rewrite load_app, load_app. f_equal; [|f_equal].
      * rewrite load_store_other by lia. exact A.
      * apply load_store.
      * rewrite load_store_other by lia. rewrite E. exact Bq.
    + intros q Q1 Q2. rewrite store_other by lia. apply Z; lia.
  - intros q Q. apply store_other. destruct K as (K1 & K2 & K3). lia.
Qed.

(** Reading a part of the content. *)
Lemma holds_read m s a x b : holds m s (a ++ x ++ b) -> load m (sbeg s + len a) (len x) = x.
Proof.
  intros (K & W & L & Z). rewrite !len_app in *.
  rewrite (load_sub m (sbeg s) (len a + (len x + len b))) by lia. rewrite L.
  unfold len. rewrite !Nat2N.id. rewrite skipn_app, skipn_all, Nat.sub_diag. cbn [skipn app].
  rewrite firstn_app, Nat.sub_diag, firstn_all. cbn [firstn]. now rewrite app_nil_r.
Qed.

(** ** Fixed size records *)
Definition recs_ok (es : N) (rs : list (list N)) : Prop := Forall (fun r => len r = es) rs.

Lemma len_concat es rs : recs_ok es rs -> len (concat rs) = es * len rs.
Proof.
  induction 1 as [|r rs H _ IH]; [cbn; lia|]. cbn [concat]. rewrite len_app, len_cons, IH, H. lia.
Qed.

Lemma recs_app es a b : recs_ok es (a ++ b) <-> recs_ok es a /\ recs_ok es b.
Proof. apply Forall_app. Qed.

Lemma get_split {A} (l : list A) i x : get l i = Some x -> exists a b, l = a ++ x :: b /\ len a = i.
Proof.
  intros H. unfold get in H. apply nth_error_split in H. destruct H as (a & b & E & L).
  exists a, b. split; auto. unfold len. lia.
Qed.

Lemma holds_entry m s es rs i r : holds m s (concat rs) -> recs_ok es rs -> get rs i = Some r ->
  entry m s es i = r.
Proof.
  intros H R G. apply get_split in G as (a & b & -> & <-).
  apply recs_app in R as [Ra Rb]. inversion Rb; subst.
  rewrite concat_app in H. cbn [concat] in H.
  unfold entry. rewrite <- (len_concat _ _ Ra). exact (holds_read _ _ _ _ _ H).
Qed.

Lemma holds_count m s es rs : 1 <= es -> holds m s (concat rs) -> recs_ok es rs -> sect_count s es = len rs.
Proof.
  intros E (K & W & _) R. unfold sect_count, sect_size. rewrite W, (len_concat _ _ R).
  replace (sbeg s + es * len rs - sbeg s) with (len rs * es) by lia. apply N.div_mul. lia.
Qed.

Lemma holds_index s es p k : 1 <= es -> p = sbeg s + es * k -> p < send s -> sect_index s es p = Ok k.
Proof.
  intros E -> L. unfold sect_index, sect_offset.
  destruct (N.ltb_spec (sbeg s + es * k) (sbeg s)); [lia|].
  destruct (N.leb_spec (send s) (sbeg s + es * k)); [lia|]. cbn [orb bind].
  replace (sbeg s + es * k - sbeg s) with (k * es) by lia. now rewrite N.div_mul by lia.
Qed.


Lemma store_app m p a b x : store (store m p a) (p + len a) b x = store m p (a ++ b) x.
Proof.
  unfold store. rewrite len_app.
  destruct (N.leb_spec (p + len a) x), (N.ltb_spec x (p + len a + len b)),
    (N.leb_spec p x), (N.ltb_spec x (p + len a)), (N.ltb_spec x (p + (len a + len b))); cbn; try lia; auto.
  - rewrite app_nth2 by (unfold len in *; lia). f_equal. unfold len in *. lia.
  - rewrite app_nth1 by (unfold len in *; lia). reflexivity.
Qed.

Lemma gen_loop_store es gen k : forall m p i x,
  (forall j, len (gen j) = es) ->
  gen_loop m p es gen i k x = store m p (concat (map gen (nseq i k))) x.
Proof.
  induction k as [|k IH]; intros m p i x G.
  - cbn. unfold store. change (len []) with 0. destruct (N.leb_spec p x), (N.ltb_spec x (p + 0)); cbn; auto; lia.
  - cbn [gen_loop nseq map concat]. rewrite IH by assumption.
    rewrite <- store_app. rewrite G. reflexivity.
Qed.

Lemma holds_ext m m' s c : (forall a, m a = m' a) -> holds m s c -> holds m' s c.
Proof.
  intros E (K & W & L & Z). repeat split; auto; try apply K.
  - rewrite <- L at 2. apply load_ext. auto.
  - intros a A B. rewrite <- E. auto.
Qed.

Lemma recs_map es (gen : N -> list N) l : (forall j, len (gen j) = es) -> recs_ok es (map gen l).
Proof. intros G. apply Forall_forall. intros r H. apply in_map_iff in H as (j & <- & _). apply G. Qed.

Lemma construct_range_some m s rs es n gen p m' s' :
  holds m s (concat rs) -> recs_ok es rs -> 1 <= es -> es * n < two64 ->
  (forall j, len (gen j) = es) ->
  construct_range m s es n gen = Some (p, m', s') ->
  p = sbeg s + es * len rs /\ sbeg s' = sbeg s /\ send s' = send s /\
  holds m' s' (concat (rs ++ map gen (nseq 0 (N.to_nat n)))) /\
  frame s m m' /\ sbeg s + es * (len rs + n) <= send s.
Proof.
  intros H R E B G C. unfold construct_range, mul64 in C. rewrite N.mod_small in C by assumption.
  destruct (sect_write s (es * n)) as [[q s1]|] eqn:W; [|discriminate]. inversion C; subst. clear C.
  replace (es * n / es) with n by (rewrite N.mul_comm, N.div_mul; lia).
  set (bs := concat (map gen (nseq 0 (N.to_nat n)))).
  assert (Lb : len bs = es * n).
  { unfold bs. rewrite (len_concat es) by now apply recs_map. rewrite len_map, len_nseq. lia. }
  destruct (holds_append m s (concat rs) (es * n) p s' bs H B W ltac:(lia)) as (A1 & A2 & A3 & A4 & A5 & A6).
  rewrite Lb, N.sub_diag, zeros_0, app_nil_r in A4.
  assert (X : forall x, store m p bs x = gen_loop m p es gen 0 (N.to_nat n) x).
  { intros x. symmetry. now apply gen_loop_store. }
  rewrite (len_concat es) in A1, A6 by assumption.
  repeat (split; [assumption|]). split; [|split].
  - rewrite concat_app. eapply holds_ext; [exact X|exact A4].
  - intros a Ha. rewrite <- X. now apply A5.
  - lia.
Qed.

Lemma construct_range_none m s rs es n gen :
  holds m s (concat rs) -> recs_ok es rs -> es * n < two64 ->
  (construct_range m s es n gen = None <-> send s < sbeg s + es * (len rs + n)).
Proof.
  intros (K & W & _) R B. unfold construct_range, mul64. rewrite N.mod_small by assumption.
  rewrite (len_concat es) in W by assumption.
  replace (sbeg s + es * (len rs + n)) with (wit s + es * n) by lia.
  rewrite <- (sect_write_none s (es * n) K B).
  destruct (sect_write s (es * n)) as [[q s1]|]; split; congruence.
Qed.

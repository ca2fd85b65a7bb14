(** Proofs about questions to graphs. *)
From Coq Require Import NArith ZArith List Bool Lia Arith Permutation Sorting.Sorted.
From Verif Require Import M_Base M_PyGraph M_PyDiGraph S_Graph S_Dominators P_Base P_PyGraph.
Import ListNotations.
Local Open Scope nat_scope.

(** ** Search by levels *)
Inductive stepn (next : Z -> list Z) : nat -> Z -> Z -> Prop :=
| st_0 a : stepn next 0 a a
| st_S n a b c : stepn next n a b -> In c (next b) -> stepn next (S n) a c.
Definition least next n a b := stepn next n a b /\ forall m, stepn next m a b -> n <= m.

Lemma least_fun next a b n m : least next n a b -> least next m a b -> n = m.
Proof. intros [A B] [C D]. specialize (B _ C). specialize (D _ A). lia. Qed.

Fixpoint level_n (next : Z -> list Z) (n : nat) (a : Z) : list Z :=
  match n with O => [a] | S m => flat_map next (level_n next m a) end.
Lemma level_n_iff next n a b : stepn next n a b <-> In b (level_n next n a).
Proof.
  revert b. induction n as [|n IH]; intros b; cbn [level_n].
  - split; [intros H; inversion H; now left|intros [->|[]]; constructor].
  - rewrite in_flat_map. split.
    + intros H. inversion H; subst. eexists; split; [apply IH; eassumption|assumption].
    + intros (x & A & B). econstructor; [apply IH, A|exact B].
Qed.
Lemma stepn_dec next n a b : {stepn next n a b} + {~ stepn next n a b}.
Proof. destruct (in_dec Z.eq_dec b (level_n next n a)); [left|right]; rewrite level_n_iff; assumption. Qed.
Lemma least_ex next n a b : stepn next n a b -> exists m, m <= n /\ least next m a b.
Proof.
  induction n as [n IH] using (well_founded_induction lt_wf). intros H.
  assert (D : (exists m, m < n /\ stepn next m a b) \/ forall m, m < n -> ~ stepn next m a b).
  { clear. induction n as [|n IH]; [right; lia|].
    destruct IH as [(m & A & B)|N]; [left; exists m; split; [lia|exact B]|].
    destruct (stepn_dec next n a b) as [Y|Y]; [left; exists n; split; [lia|exact Y]|].
    right. intros m Hm. destruct (Nat.eq_dec m n) as [->|]; [exact Y|apply N; lia]. }
  destruct D as [(m & A & B)|N].
  - destruct (IH m A B) as (k & C & E). exists k. split; [lia|exact E].
  - exists n. split; [lia|]. split; [exact H|]. intros m Hm. destruct (Nat.lt_ge_cases m n) as [L|]; [destruct (N m L Hm)|assumption].
Qed.
Lemma least_pred next n a c : least next (S n) a c -> exists b, least next n a b /\ In c (next b).
Proof.
  intros [A B]. inversion A as [|m a' b c' H I]; subst. exists b. split; [|exact I].
  destruct (least_ex _ _ _ _ H) as (k & L & K). destruct (Nat.eq_dec k n) as [->|]; [exact K|].
  specialize (B (S k) (st_S _ _ _ _ _ (proj1 K) I)). lia.
Qed.
Lemma least_down next n a c : least next n a c -> forall k, k <= n -> exists b, least next k a b.
Proof.
  revert c. induction n as [|n IH]; intros c H k L.
  - replace k with 0 by lia. eauto.
  - destruct (Nat.eq_dec k (S n)) as [->|]; [eauto|]. destruct (least_pred _ _ _ _ H) as (b & B & _). eapply IH; [exact B|lia].
Qed.

Lemma bfs_ok next U s (HU : forall u x, In u U -> In x (next u) -> In x U) : forall fuel seen frontier k,
  (forall x d, In (x, d) seen <-> least next d s x /\ d < k) ->
  (forall x, In x frontier -> stepn next k s x) -> (forall x, least next k s x -> In x frontier) ->
  NoDup (map fst seen) -> incl (map fst seen) U -> incl frontier U -> length U - length seen < fuel ->
  let res := bfs fuel next seen frontier k in
  NoDup (map fst res) /\ forall x d, In (x, d) res <-> least next d s x.
Proof.
  induction fuel as [|f IH]; intros seen frontier k A B C ND IS IF L; [lia|]. cbn [bfs].
  set (found := nodup Z.eq_dec (filter (fun x => negb (zmem x (map fst seen))) frontier)).
  assert (F : forall x, In x found <-> least next k s x).
  { intros x. unfold found. rewrite nodup_In, filter_In. split.
    - intros [I N]. destruct (least_ex _ _ _ _ (B x I)) as (m & Lm & M). destruct (Nat.eq_dec m k) as [->|NE]; [exact M|].
      exfalso. assert (IN : In x (map fst seen)) by (apply (in_map fst seen (x, m)), A; split; [exact M|lia]).
      apply zmem_iff in IN. rewrite IN in N. discriminate N.
    - intros M. split; [apply C, M|]. destruct (zmem x (map fst seen)) eqn:Z; [|reflexivity]. exfalso.
      apply zmem_iff, in_map_iff in Z. destruct Z as ([y d] & E & I). cbn in E. subst y. apply A in I. destruct I as [I Lt].
      pose proof (least_fun _ _ _ _ _ I M). lia. }
  assert (NF : NoDup found) by apply NoDup_nodup.
  assert (FU : incl found U) by (intros x Hx; unfold found in Hx; apply nodup_In, filter_In in Hx; apply IF, Hx).
  assert (DJ : forall x, In x found -> ~ In x (map fst seen)).
  { intros x Hx. unfold found in Hx. apply nodup_In, filter_In in Hx. destruct Hx as [_ Hx]. intros I. apply zmem_iff in I. rewrite I in Hx. discriminate Hx. }
  clearbody found. destruct found as [|y ys].
  - split; [exact ND|]. intros x d. rewrite A. split; [intros [H _]; exact H|]. intros H. split; [exact H|].
    destruct (Nat.lt_ge_cases d k) as [|G]; [assumption|]. destruct (least_down _ _ _ _ H k G) as (b & Hb). apply F in Hb. destruct Hb.
  - assert (LP : 1 <= length (y :: ys)) by (cbn; lia). remember (y :: ys) as found eqn:E. clear E.
    assert (ND' : NoDup (map fst (seen ++ map (fun x => (x, k)) found))).
    { rewrite map_app, map_map. cbn [fst]. rewrite map_id. clear - ND NF DJ. induction (map fst seen) as [|a l IHl]; [exact NF|].
      inversion ND; subst. cbn. constructor; [|apply IHl; [assumption|intros x Hx I; apply (DJ x Hx); right; exact I]].
      rewrite in_app_iff. intros [I|I]; [contradiction|]. apply (DJ a I). now left. }
    apply IH; [| | |exact ND'| | |].
    + intros x d. rewrite in_app_iff, A, in_map_iff. split.
      * intros [[H Lt]|(z & E & I)]; [split; [exact H|lia]|]. injection E as <- <-. split; [apply F, I|lia].
      * intros [H Lt]. destruct (Nat.eq_dec d k) as [->|]; [right; exists x; split; [reflexivity|apply F, H]|left; split; [exact H|lia]].
    + intros x Hx. apply in_flat_map in Hx. destruct Hx as (z & I & J). econstructor; [apply (proj1 (F z) I)|exact J].
    + intros x Hx. destruct (least_pred _ _ _ _ Hx) as (b & Hb & I). apply in_flat_map. exists b. split; [apply F, Hb|exact I].
    + rewrite map_app, map_map. cbn [fst]. rewrite map_id. apply incl_app; assumption.
    + intros x Hx. apply in_flat_map in Hx. destruct Hx as (z & I & J). exact (HU z x (FU z I) J).
    + rewrite app_length, map_length.
      assert (LE : length (map fst (seen ++ map (fun x => (x, k)) found)) <= length U).
      { apply NoDup_incl_length; [exact ND'|]. rewrite map_app, map_map. cbn [fst]. rewrite map_id. apply incl_app; assumption. }
      rewrite map_length, app_length, map_length in LE.
      lia.
Qed.

(** ** Walks *)
Lemma walk_head es a l b : walk es a l b -> exists t, l = a :: t.
Proof. intros H; inversion H; eauto. Qed.
Lemma walk_in_l es a l b : walk es a l b -> In a l.
Proof. intros H. destruct (walk_head _ _ _ _ H) as (t & ->). now left. Qed.
Lemma walk_in_r es a l b : walk es a l b -> In b l.
Proof. induction 1; [now left|right; assumption]. Qed.
Lemma walk_snoc es a l b c : walk es a l b -> In (b, c) es -> walk es a (l ++ [c]) c.
Proof.
  induction 1 as [a|a b' c' l E W IH]; intros I; cbn.
  - econstructor; [exact I|constructor].
  - econstructor; [exact E|apply IH, I].
Qed.
(** Joining two walks: the node in the middle is listed once. *)
Lemma walk_join es a l b m c : walk es a l b -> walk es b (b :: m) c -> walk es a (l ++ m) c.
Proof.
  induction 1 as [a|a b' c' l E W IH]; intros I; cbn; [exact I|].
  econstructor; [exact E|apply IH, I].
Qed.
(** Cutting a walk at a node it visits. *)
Lemma walk_cut es a l c x : walk es a l c -> In x l -> exists l1 l2, l = l1 ++ x :: l2 /\ walk es a (l1 ++ [x]) x /\ walk es x (x :: l2) c.
Proof.
  induction 1 as [a|a b c l E W IH]; intros I.
  - destruct I as [<-|[]]. exists [], []. repeat split; constructor.
  - destruct (Z.eq_dec a x) as [<-|NE].
    + exists [], l. repeat split; [constructor|econstructor; eassumption].
    + destruct I as [->|I]; [congruence|]. destruct (IH I) as (l1 & l2 & -> & A & B).
      exists (a :: l1), l2. repeat split; [econstructor; eassumption|exact B].
Qed.
(** ... at the first and at the last time it visits one of several nodes. *)
Lemma walk_first es a l c x : walk es a l c -> In x l -> exists l1 l2, l = l1 ++ x :: l2 /\ ~ In x l1 /\ walk es a (l1 ++ [x]) x /\ walk es x (x :: l2) c.
Proof.
  induction 1 as [a|a b c l E W IH]; intros I.
  - destruct I as [<-|[]]. exists [], []. repeat split; [easy|constructor|constructor].
  - destruct (Z.eq_dec a x) as [<-|NE].
    + exists [], l. repeat split; [easy|constructor|econstructor; eassumption].
    + destruct I as [->|I]; [congruence|]. destruct (IH I) as (l1 & l2 & -> & N & A & B).
      exists (a :: l1), l2. repeat split; [intros [->|J]; [congruence|exact (N J)]|econstructor; eassumption|exact B].
Qed.
Lemma walk_last es a l c (P : Z -> Prop) (D : forall z, {P z} + {~ P z}) : walk es a l c -> Exists P l -> exists x l1 l2, P x /\ l = l1 ++ x :: l2 /\ Forall (fun y => ~ P y) l2 /\ walk es x (x :: l2) c.
Proof.
  induction 1 as [a|a b c l E W IH]; intros I.
  - inversion I as [? ? Pa|? ? N]; subst; [|inversion N]. exists a, [], []. repeat split; [exact Pa|constructor|constructor].
  - destruct (Exists_dec P l D) as [Y|N].
    + destruct (IH Y) as (x & l1 & l2 & Px & -> & F & B). exists x, (a :: l1), l2. repeat split; assumption.
    + inversion I as [? ? Pa|? ? Y]; subst; [|contradiction]. exists a, [], l. repeat split; [exact Pa| |econstructor; eassumption].
      apply Forall_Exists_neg, N.
Qed.

(** Steps and walks. *)
Lemma stepn_front next a b c n : In b (next a) -> stepn next n b c -> stepn next (S n) a c.
Proof.
  intros I H. induction H as [b|n b x c H IH J].
  - econstructor; [constructor|exact I].
  - econstructor; [apply IH, I|exact J].
Qed.
Lemma stepn_walk es next (ok : Z -> Prop) (HN : forall b c, In c (next b) <-> In (b, c) es /\ ok c) n a b :
  stepn next n a b <-> exists t, walk es a (a :: t) b /\ length t = n /\ Forall ok t.
Proof.
  split.
  - induction 1 as [a|n a b c H IH I].
    + exists []. repeat split; [constructor|constructor].
    + destruct IH as (t & W & L & F). apply HN in I. exists (t ++ [c]). repeat split.
      * change (a :: t ++ [c]) with ((a :: t) ++ [c]). eapply walk_snoc; [exact W|apply I].
      * rewrite app_length. cbn. lia.
      * apply Forall_app. split; [exact F|constructor; [apply I|constructor]].
  - intros (t & W & L & F). revert n L F. remember (a :: t) as l eqn:E. revert t E.
    induction W as [a'|a' b' c' l E W IH]; intros t Eq n L F.
    + injection Eq as <-. cbn in L. subst n. constructor.
    + injection Eq as <-. subst n. destruct (walk_head _ _ _ _ W) as (t' & ->). inversion F; subst. cbn [length].
      eapply stepn_front; [apply HN; split; [exact E|assumption]|]. eapply IH; [reflexivity|reflexivity|assumption].
Qed.

Lemma in_succs g u v : In v (succs g u) <-> In (u, v) (g_edges g).
Proof.
  unfold succs. rewrite in_map_iff. split.
  - intros ([a b] & E & I). cbn in E. subst b. apply filter_In in I. destruct I as [I F]. cbn in F. apply Z.eqb_eq in F. subst a. exact I.
  - intros I. exists (u, v). split; [reflexivity|]. apply filter_In. split; [exact I|]. cbn. apply Z.eqb_refl.
Qed.
Lemma in_preds g u v : In u (preds g v) <-> In (u, v) (g_edges g).
Proof.
  unfold preds. rewrite in_map_iff. split.
  - intros ([a b] & E & I). cbn in E. subst a. apply filter_In in I. destruct I as [I F]. cbn in F. apply Z.eqb_eq in F. subst b. exact I.
  - intros I. exists (u, v). split; [reflexivity|]. apply filter_In. split; [exact I|]. cbn. apply Z.eqb_refl.
Qed.
Lemma in_without g d u v : In v (without g d u) <-> In (u, v) (g_edges g) /\ v <> d.
Proof.
  unfold without. rewrite filter_In, in_succs. split; intros [A B]; (split; [exact A|]).
  - destruct (Z.eqb_spec v d); [discriminate B|assumption].
  - destruct (Z.eqb_spec v d); [contradiction|reflexivity].
Qed.

Lemma stepn_succs g n a b : stepn (succs g) n a b <-> exists l, walk (g_edges g) a l b /\ length l = S n.
Proof.
  rewrite (stepn_walk (g_edges g) (succs g) (fun _ => True)) by (intros; rewrite in_succs; tauto). split.
  - intros (t & W & L & _). exists (a :: t). split; [exact W|cbn; lia].
  - intros (l & W & L). destruct (walk_head _ _ _ _ W) as (t & ->). exists t. repeat split; [exact W|cbn in L; lia|apply Forall_forall; easy].
Qed.
Lemma stepn_preds g n a b : stepn (preds g) n a b <-> stepn (succs g) n b a.
Proof.
  split.
  - induction 1 as [a|n a b c H IH I]; [constructor|]. eapply stepn_front; [apply in_succs, in_preds, I|exact IH].
  - induction 1 as [a|n a b c H IH I]; [constructor|]. eapply stepn_front; [apply in_preds, in_succs, I|exact IH].
Qed.
Lemma stepn_without g d n a b : a <> d -> stepn (without g d) n a b <-> exists l, walk (g_edges g) a l b /\ length l = S n /\ ~ In d l.
Proof.
  intros NE. rewrite (stepn_walk (g_edges g) (without g d) (fun v => v <> d)) by (intros; apply in_without). split.
  - intros (t & W & L & F). exists (a :: t). repeat split; [exact W|cbn; lia|]. intros [->|I]; [congruence|].
    rewrite Forall_forall in F. exact (F d I eq_refl).
  - intros (l & W & L & N). destruct (walk_head _ _ _ _ W) as (t & ->). exists t. repeat split; [exact W|cbn in L; lia|].
    apply Forall_forall. intros x I ->. apply N. now right.
Qed.

Lemma least_distance g n a b : least (succs g) n a b <-> distance (g_edges g) a b n.
Proof.
  unfold least, distance. rewrite stepn_succs. split; intros [A B]; (split; [exact A|]).
  - intros l W. destruct (walk_head _ _ _ _ W) as (t & ->). cbn. apply le_n_S, B, stepn_succs. exists (a :: t). split; [exact W|reflexivity].
  - intros m M. apply stepn_succs in M. destruct M as (l & W & L). specialize (B l W). lia.
Qed.
Lemma least_preds g n a b : least (preds g) n a b <-> distance (g_edges g) b a n.
Proof.
  rewrite <- least_distance. unfold least. rewrite stepn_preds. split; intros [A B]; (split; [exact A|]); intros m M; apply B, stepn_preds, M.
Qed.

Lemma wf_edges g u v : wf_graph g -> In (u, v) (g_edges g) -> In u (g_nodes g) /\ In v (g_nodes g).
Proof. intros W. apply W. Qed.
Lemma lengths_ok g next s : (forall u x, In u (g_nodes g) -> In x (next u) -> In x (g_nodes g)) -> In s (g_nodes g) ->
  NoDup (map fst (lengths g next s)) /\ forall x d, In (x, d) (lengths g next s) <-> least next d s x.
Proof.
  intros C I. unfold lengths. apply (bfs_ok next (g_nodes g) s C).
  - intros x d. split; [easy|lia].
  - intros x [<-|[]]. constructor.
  - intros x [H _]. inversion H; subst. now left.
  - constructor.
  - easy.
  - intros x [<-|[]]. exact I.
  - cbn. lia.
Qed.
Lemma lengths_succs g s : wf_graph g -> In s (g_nodes g) ->
  NoDup (map fst (lengths g (succs g) s)) /\ forall x d, In (x, d) (lengths g (succs g) s) <-> distance (g_edges g) s x d.
Proof.
  intros W I. destruct (lengths_ok g (succs g) s) as [A B]; [|exact I|].
  - intros u x _ H. apply in_succs in H. apply (wf_edges g u x W H).
  - split; [exact A|]. intros x d. rewrite B. apply least_distance.
Qed.
Lemma lengths_preds g s : wf_graph g -> In s (g_nodes g) ->
  NoDup (map fst (lengths g (preds g) s)) /\ forall x d, In (x, d) (lengths g (preds g) s) <-> distance (g_edges g) x s d.
Proof.
  intros W I. destruct (lengths_ok g (preds g) s) as [A B]; [|exact I|].
  - intros u x _ H. apply in_preds in H. apply (wf_edges g x u W H).
  - split; [exact A|]. intros x d. rewrite B. apply least_preds.
Qed.
Lemma distance_ex g a b : reaches (g_edges g) a b -> exists n, distance (g_edges g) a b n.
Proof.
  intros (l & W). destruct (walk_head _ _ _ _ W) as (t & ->).
  assert (S : stepn (succs g) (length t) a b) by (apply stepn_succs; exists (a :: t); split; [exact W|reflexivity]).
  destruct (least_ex _ _ _ _ S) as (m & _ & L). exists m. apply least_distance, L.
Qed.
Lemma distance_fun es a b n m : distance es a b n -> distance es a b m -> n = m.
Proof. intros [(l & A & L) B] [(l' & C & L') D]. specialize (B _ C). specialize (D _ A). lia. Qed.
Lemma reached g s x : wf_graph g -> In s (g_nodes g) -> In x (map fst (lengths g (succs g) s)) <-> reaches (g_edges g) s x.
Proof.
  intros W I. destruct (lengths_succs g s W I) as [_ B]. rewrite in_map_iff. split.
  - intros ([y d] & E & J). cbn in E. subst y. apply B in J. destruct J as [(l & J & _) _]. exists l. exact J.
  - intros R. destruct (distance_ex g s x R) as (n & D). exists (x, n). split; [reflexivity|apply B, D].
Qed.

(** A lookup. *)
Lemma look_in d x n : NoDup (map fst d) -> look d x = Some n <-> In (x, n) d.
Proof.
  induction d as [|[y m] r IH]; intros ND; cbn [look]; [split; easy|]. inversion ND; subst. destruct (Z.eqb_spec x y) as [->|NE].
  - split; [intros [= ->]; now left|]. intros [[= ->]|I]; [reflexivity|]. exfalso. apply H1. apply (in_map fst _ _ I).
  - rewrite IH by assumption. split; [now right|]. intros [E|I]; [exfalso; apply NE; congruence|exact I].
Qed.
Lemma look_none d x : look d x = None <-> ~ In x (map fst d).
Proof.
  induction d as [|[y m] r IH]; cbn [look]; [easy|]. destruct (Z.eqb_spec x y) as [->|NE].
  - split; [easy|]. intros H. exfalso. apply H. now left.
  - rewrite IH. split; intros H I; apply H; [destruct I as [E|I]; [cbn in E; congruence|exact I]|right; exact I].
Qed.

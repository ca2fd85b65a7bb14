(** File cavities. *)
From Coq Require Import NArith ZArith List Bool Lia Sorted.
From Verif Require Import M_Base M_Encoding M_Labels M_Sources M_PyNode M_PySections M_PyFile M_PyAnalysis S_Provenance S_Labels S_Cavities
  P_Base P_Encoding P_Labels P_PyNode P_ControlFlow P_History P_PyAnalysis P_Forest P_ApiDemo.
Import ListNotations.
Open Scope N_scope.

(** ** marker_to_ranges *)
Lemma apart_le rs : forall a b, a <= b -> apart b rs -> apart a rs.
Proof. destruct rs as [|[x y] rs]; cbn [apart]; intros; [exact I|]. intuition lia. Qed.

Lemma ranges_spec m : forall i start,
  (forall s, start = Some s -> s < i) ->
  let rs := ranges_loop m i start in
  apart (match start with Some s => s | None => i end) rs /\
  forall o, (exists a b, In (a, b) rs /\ a <= o < b) <->
    (exists s, start = Some s /\ s <= o < i) \/ (i <= o /\ get m (o - i) = Some 0).
Proof.
  induction m as [|v m IH]; intros i start Hs; cbn [ranges_loop].
  - destruct start as [s|]; cbn [apart In].
    + specialize (Hs s eq_refl). split; [lia|]. intros o. split.
      * intros (a & b & [E|[]] & B). inversion E; subst. left. exists a. auto.
      * intros [(s' & E & B)|(_ & G)]; [|rewrite get_nil in G; discriminate]. inversion E; subst. exists s', i. auto.
    + split; [exact I|]. intros o. split; [intros (a & b & [] & _)|]. intros [(s & E & _)|(_ & G)]; [discriminate|rewrite get_nil in G; discriminate].
  - assert (Gt : forall o, i + 1 <= o -> get (v :: m) (o - i) = get m (o - (i + 1))).
    { intros o Ho. rewrite get_cons_S by lia. f_equal. lia. }
    assert (G0 : get (v :: m) (i - i) = Some v) by (rewrite N.sub_diag; reflexivity).
    destruct (N.eqb_spec v 0) as [->|Nv].
    + specialize (IH (i + 1) (match start with None => Some i | Some _ => start end)).
      destruct IH as [IH1 IH2]. { intros s E. destruct start as [s'|]; inversion E; subst; [specialize (Hs s eq_refl)|]; lia. }
      split; [destruct start; exact IH1|]. intros o. rewrite IH2. destruct start as [s|].
      * split.
        -- intros [(s' & E & B)|(L & G)]; [inversion E; subst|right; rewrite Gt by lia; split; [lia|exact G]].
           destruct (N.eq_dec o i) as [->|Ne]; [right; split; [lia|exact G0]|left; exists s'; split; [reflexivity|lia]].
        -- intros [(s' & E & B)|(L & G)]; [left; exists s'; split; [exact E|lia]|].
           destruct (N.eq_dec o i) as [->|Ne]; [left; exists s; specialize (Hs s eq_refl); split; [reflexivity|lia]|right; rewrite <- Gt by lia; split; [lia|exact G]].
      * split.
        -- intros [(s' & E & B)|(L & G)]; [inversion E; subst|right; rewrite Gt by lia; split; [lia|exact G]].
           replace o with s' by lia. right. split; [lia|exact G0].
        -- intros [(s' & E & B)|(L & G)]; [discriminate|].
           destruct (N.eq_dec o i) as [->|Ne]; [left; exists i; split; [reflexivity|lia]|right; rewrite <- Gt by lia; split; [lia|exact G]].
    + destruct (IH (i + 1) None) as [IH1 IH2]; [discriminate|]. destruct start as [s|].
      * specialize (Hs s eq_refl). cbn [apart In]. split; [split; [lia|]; split; [exact Hs|exact IH1]|]. intros o. split.
        -- intros (a & b & [E|Hin] & B); [inversion E; subst; left; exists a; auto|].
           right. destruct (proj1 (IH2 o) (ex_intro _ a (ex_intro _ b (conj Hin B)))) as [(s' & E & _)|(L & G)]; [discriminate|].
           rewrite Gt by lia. split; [lia|exact G].
        -- intros [(s' & E & B)|(L & G)]; [inversion E; subst; exists s', i; auto|].
           assert (o <> i) by (intros ->; rewrite G0 in G; inversion G; congruence).
           destruct (proj2 (IH2 o)) as (a & b & Hin & B); [right; rewrite <- Gt by lia; split; [lia|exact G]|]. exists a, b. auto.
      * split; [apply (apart_le _ i (i + 1)); [lia|exact IH1]|]. intros o. rewrite IH2. split.
        -- intros [(s' & E & _)|(L & G)]; [discriminate|]. right. rewrite Gt by lia. split; [lia|exact G].
        -- intros [(s' & E & _)|(L & G)]; [discriminate|]. right.
           assert (o <> i) by (intros ->; rewrite G0 in G; inversion G; congruence). rewrite <- Gt by lia. split; [lia|exact G].
Qed.

Lemma marker_runs m : maximal_runs (fun o => get m o = Some 0) (marker_to_ranges m).
Proof.
  destruct (ranges_spec m 0 None) as [H1 H2]; [discriminate|]. split; [exact H1|]. intros o. unfold marker_to_ranges. rewrite H2.
  rewrite N.sub_0_r. split; [intros [(s & E & _)|[_ G]]; [discriminate|exact G]|]. intros G. right. split; [lia|exact G].
Qed.

(** ** Marker tables *)
Lemma Neq : forall x y : N, (x =? y) = true <-> x = y.
Proof. intros. apply N.eqb_eq. Qed.
Definition nget (ms : markers_t) := dict_get N.eqb ms.

Section Cav.
  Variables (d : tdfile) (t : table) (size : N -> option N).
  Hypothesis I0 : linv t.
  Hypothesis Dec : forall l tn, view t l = Some tn -> td_decode_node d l = Ok (node_of tn).
  Hypothesis Fds : forall l cf i o, view t l = Some (TSource cf i o) -> exists h, td_fd_header d i = Ok h /\
    size i = if fd_invalid_size (snd h) then None else Some (fd_size (snd h)).

  Record marks (ms : markers_t) (P : N -> N -> Prop) (K : N * N -> Prop) : Prop := {
    mk_nodup : NoDup (map fst ms);
    mk_in : forall i, (exists m, nget ms i = Some m) <-> exists o, P i o;
    mk_len : forall i m, nget ms i = Some m -> forall k, k < len m <-> (exists n, size i = Some n /\ k < n) \/ exists o, P i o /\ k <= o;
    mk_val : forall i m o v, nget ms i = Some m -> get m o = Some v -> (v <> 0 <-> K (i, o));
    mk_sub : forall b, K b -> P (fst b) (snd b)
  }.

  Lemma marks_ext ms P K P' K' : (forall i o, P i o <-> P' i o) -> (forall b, K b <-> K' b) -> marks ms P K -> marks ms P' K'.
  Proof.
    intros HP HK [M1 M2 M3 M4 M5]. constructor; auto.
    - intros i. rewrite M2. split; intros (o & H); exists o; now apply HP.
    - intros i m G k. rewrite (M3 i m G). split; (intros [H|(o & H & L)]; [now left|right; exists o; split; [now apply HP|exact L]]).
    - intros i m o v G1 G2. rewrite (M4 i m o v G1 G2). apply HK.
    - intros b H. apply HP, M5, HK, H.
  Qed.

  Lemma mark_ok ms P K i o : marks ms P K -> P i o ->
    exists ms', mark ms i o = Ok ms' /\ marks ms' P (fun b => K b \/ b = (i, o)).
  Proof.
    intros [M1 M2 M3 M4 M5] Po. destruct (proj2 (M2 i) (ex_intro _ o Po)) as (m & G).
    assert (L : o < len m) by (apply (M3 i m G); right; exists o; split; [exact Po|lia]).
    unfold mark. change (dict_get N.eqb ms i) with (nget ms i). rewrite G. unfold ba_set. destruct (N.ltb_spec o (len m)) as [_|?]; [|lia]. cbn [bind].
    eexists. split; [reflexivity|].
    assert (New : nget (dict_set N.eqb ms i (upd m o 1)) i = Some (upd m o 1)) by apply (dict_same N.eqb Neq).
    assert (Old : forall j, j <> i -> nget (dict_set N.eqb ms i (upd m o 1)) j = nget ms j) by (intros; now apply (dict_other N.eqb Neq)).
    constructor.
    - now apply (dict_nodup N.eqb Neq).
    - intros j. rewrite <- M2. destruct (N.eq_dec j i) as [->|Ne]; [rewrite New, G; split; eauto|rewrite Old by exact Ne; tauto].
    - intros j m' G' k. destruct (N.eq_dec j i) as [->|Ne]; [rewrite New in G'; inversion G'; subst; rewrite len_upd; now apply M3|].
      rewrite Old in G' by exact Ne. now apply M3.
    - intros j m' o' v G' Gv. destruct (N.eq_dec j i) as [->|Ne].
      + rewrite New in G'. inversion G'; subst m'. destruct (N.eq_dec o o') as [<-|No]; [rewrite get_upd_eq in Gv by exact L|rewrite get_upd_neq in Gv by exact No].
        * assert (v = 1) by congruence. subst v. split; [intros _; now right|intros _; lia].
        * rewrite (M4 i m o' v G Gv). split; [now left|]. intros [H|H]; [exact H|congruence].
      + rewrite Old in G' by exact Ne. rewrite (M4 j m' o' v G' Gv). split; [now left|]. intros [H|H]; [exact H|congruence].
    - intros b [H| ->]; [now apply M5|exact Po].
  Qed.

  (** ** The first loop *)
  Lemma get_ljust m n k v : get (ba_ljust m n) k = Some v -> k < len m /\ get m k = Some v \/ len m <= k < n /\ v = 0.
  Proof.
    unfold ba_ljust. intros G. destruct (N.ltb_spec k (len m)) as [L|L].
    - rewrite get_app_l in G by exact L. auto.
    - rewrite get_app_r in G by exact L. right. assert (X := get_some _ _ _ G). unfold len in X at 2. rewrite repeat_length in X.
      split; [lia|]. unfold get in G. apply nth_error_In, repeat_spec in G. exact G.
  Qed.
  Lemma len_ljust m n : len (ba_ljust m n) = N.max (len m) n.
  Proof. unfold ba_ljust. rewrite len_app. unfold len at 2. rewrite repeat_length. lia. Qed.

  Lemma source_step ms P K l cf i o : marks ms P K -> view t l = Some (TSource cf i o) ->
    exists ms', cavity_source d ms l = Ok ms' /\
      marks ms' (fun j p => P j p \/ (j, p) = (i, o)) (fun b => K b \/ (cf = true /\ b = (i, o))).
  Proof.
    intros Mk V. destruct (Fds l cf i o V) as (h & Hh & Hsz). unfold cavity_source. rewrite (Dec l _ V). cbn [bind node_of].
    set (P' := fun j p => P j p \/ (j, p) = (i, o)).
    set (n0 := if fd_invalid_size (snd h) then o + 1 else fd_size (snd h)).
    assert (Start : exists ms1 m, (match dict_get N.eqb ms i with
                | Some _ => Ok ms
                | None => do h <- td_fd_header d i; Ok (dict_set N.eqb ms i (ba_new (if fd_invalid_size (snd h) then o + 1 else fd_size (snd h)))) end) = Ok ms1 /\
              nget ms1 i = Some m /\ NoDup (map fst ms1) /\ (forall j, j <> i -> nget ms1 j = nget ms j) /\
              (forall k, k < N.max (len m) (o + 1) <-> (exists n, size i = Some n /\ k < n) \/ exists p, P' i p /\ k <= p) /\
              (forall k v, get m k = Some v -> (v <> 0 <-> K (i, k))) /\ (forall k, K (i, k) -> k < len m)).
    { destruct Mk as [M1 M2 M3 M4 M5]. change (dict_get N.eqb ms i) with (nget ms i). destruct (nget ms i) as [m|] eqn:G.
      - exists ms, m. split; [reflexivity|]. split; [exact G|]. split; [exact M1|]. split; [auto|]. split; [|split].
        + intros k. rewrite N.max_lt_iff, (M3 i m G). unfold P'. split.
          * intros [[H|(p & H & L)]|H]; [now left|right; exists p; auto|right; exists o; split; [now right|lia]].
          * intros [H|(p & [H|H] & L)]; [left; now left|left; right; exists p; auto|right; inversion H; subst; lia].
        + intros k v Gv. apply (M4 i m k v G Gv).
        + intros k Hk. apply (M3 i m G). right. exists k. split; [apply (M5 _ Hk)|lia].
      - rewrite Hh. cbn [bind]. fold n0. exists (dict_set N.eqb ms i (ba_new n0)), (ba_new n0). split; [reflexivity|].
        split; [apply (dict_same N.eqb Neq)|]. split; [now apply (dict_nodup N.eqb Neq)|]. split; [intros; now apply (dict_other N.eqb Neq)|].
        assert (None' : forall p, ~ P i p).
        { intros p Hp. destruct (proj2 (M2 i) (ex_intro _ p Hp)) as (m & Gm). congruence. }
        split; [|split].
        + intros k. unfold ba_new, len. rewrite repeat_length, N2Nat.id. unfold P', n0 in *. rewrite Hsz. destruct (fd_invalid_size (snd h)).
          * split; [intros H; right; exists o; split; [now right|lia]|]. intros [(n & E & _)|(p & [H|H] & L)]; [discriminate|now apply None' in H|inversion H; subst; lia].
          * rewrite N.max_lt_iff. split.
            -- intros [H|H]; [left; eauto|right; exists o; split; [now right|lia]].
            -- intros [(n & E & L)|(p & [H|H] & L)]; [inversion E; subst; now left|now apply None' in H|inversion H; subst; right; lia].
        + intros k v Gv. unfold ba_new, get in Gv. apply nth_error_In, repeat_spec in Gv. subst v. split; [congruence|].
          intros Hk. apply M5 in Hk. now apply None' in Hk.
        + intros k Hk. apply M5 in Hk. now apply None' in Hk. }
    destruct Start as (ms1 & m & -> & G1 & N1 & Old1 & L1 & V1 & S1). cbn [bind].
    change (dict_get N.eqb ms1 i) with (nget ms1 i). rewrite G1.
    set (ms2 := if len m <=? o then dict_set N.eqb ms1 i (ba_ljust m (o + 1)) else ms1).
    assert (Mk2 : marks ms2 P' K).
    { assert (G2 : exists m2, nget ms2 i = Some m2 /\ len m2 = N.max (len m) (o + 1) /\ (forall k v, get m2 k = Some v -> (v <> 0 <-> K (i, k))) /\
              NoDup (map fst ms2) /\ (forall j, j <> i -> nget ms2 j = nget ms j)).
      { unfold ms2. destruct (N.leb_spec (len m) o).
        - exists (ba_ljust m (o + 1)). split; [apply (dict_same N.eqb Neq)|]. split; [apply len_ljust|]. split; [|split].
          + intros k v Gv. apply get_ljust in Gv as [[L Gv]|[L ->]]; [now apply V1|]. split; [congruence|]. intros Hk. apply S1 in Hk. lia.
          + now apply (dict_nodup N.eqb Neq).
          + intros j Hj. rewrite <- Old1 by exact Hj. now apply (dict_other N.eqb Neq).
        - exists m. split; [exact G1|]. split; [lia|]. split; [exact V1|]. split; [exact N1|exact Old1]. }
      destruct G2 as (m2 & G2 & L2 & V2 & N2 & Old2). destruct Mk as [M1 M2 M3 M4 M5]. constructor.
      - exact N2.
      - intros j. unfold P'. destruct (N.eq_dec j i) as [->|Ne].
        + rewrite G2. split; [intros _; exists o; now right|eauto].
        + rewrite Old2 by exact Ne. rewrite M2. split; intros (p & H); exists p; [now left|]. destruct H as [H|H]; [exact H|congruence].
      - intros j m' G' k. destruct (N.eq_dec j i) as [->|Ne].
        + rewrite G2 in G'. inversion G'; subst m'. rewrite L2. apply L1.
        + rewrite Old2 in G' by exact Ne. rewrite (M3 j m' G'). unfold P'. split; (intros [H|(p & H & L)]; [now left|right; exists p; split; [|exact L]]); [now left|].
          destruct H as [H|H]; [exact H|congruence].
      - intros j m' o' v G' Gv. destruct (N.eq_dec j i) as [->|Ne].
        + rewrite G2 in G'. inversion G'; subst m'. now apply V2.
        + rewrite Old2 in G' by exact Ne. now apply (M4 j m').
      - intros b Hb. left. now apply M5. }
    destruct cf.
    - destruct (mark_ok ms2 P' K i o Mk2 (or_intror eq_refl)) as (ms3 & E & Mk3). exists ms3. split; [exact E|].
      eapply marks_ext; [| |exact Mk3]; [reflexivity|]. intros b. tauto.
    - exists ms2. split; [reflexivity|]. eapply marks_ext; [| |exact Mk2]; [reflexivity|]. intros b. split; [now left|]. intros [H|[H _]]; [exact H|discriminate].
  Qed.

  Lemma sources_spec ls : forall ms P K, marks ms P K -> (forall l, In l ls -> exists cf i o, view t l = Some (TSource cf i o)) ->
    exists ms', cavity_sources d ls ms = Ok ms' /\
      marks ms' (fun i o => P i o \/ exists l cf, In l ls /\ view t l = Some (TSource cf i o))
                (fun b => K b \/ exists l, In l ls /\ view t l = Some (TSource true (fst b) (snd b))).
  Proof.
    induction ls as [|l ls IH]; intros ms P K Mk H; cbn [cavity_sources].
    - exists ms. split; [reflexivity|]. eapply marks_ext; [| |exact Mk]; [intros i o|intros b]; (split; [now left|]).
      + intros [X|(l & cf & [] & _)]. exact X.
      + intros [X|(l & [] & _)]. exact X.
    - destruct (H l (or_introl eq_refl)) as (cf & i & o & V). destruct (source_step ms P K l cf i o Mk V) as (ms1 & -> & Mk1). cbn [bind].
      destruct (IH ms1 _ _ Mk1) as (ms' & E & Mk'); [intros; apply H; now right|]. exists ms'. split; [exact E|].
      eapply marks_ext; [| |exact Mk'].
      + intros j p. split.
        * intros [[X|X]|(l1 & cf1 & A & B)]; [now left|right; exists l, cf; inversion X; subst; split; [now left|exact V]|right; exists l1, cf1; split; [now right|exact B]].
        * intros [X|(l1 & cf1 & [<-|A] & B)]; [left; now left|left; right; rewrite V in B; inversion B; subst; reflexivity|right; exists l1, cf1; auto].
      + intros b. split.
        * intros [[X|[-> ->]]|(l1 & A & B)]; [now left|right; exists l; split; [now left|exact V]|right; exists l1; split; [now right|exact B]].
        * intros [X|(l1 & [<-|A] & B)]; [left; now left|left; right; rewrite V in B; inversion B; subst; destruct b; auto|right; exists l1; auto].
  Qed.

  (** ** The walk *)
  Variable P : N -> N -> Prop.
  Hypothesis HP : forall i o, P i o <-> exists l cf, view t l = Some (TSource cf i o).
  Definition cf_byte (b : N * N) : Prop := exists l, view t l = Some (TSource true (fst b) (snd b)).

  Lemma flg_built x k : built_from (view t) x k -> flg t x -> flg t k.
  Proof. induction 1 as [x|x m k C B IH]; [auto|]. intros F. apply IH. exact (proj2 I0 x m F C). Qed.
  Lemma flg_derives x b : flg t x -> derives (view t) x b -> cf_byte b.
  Proof.
    intros F (k & cf & B & V). destruct (flg_built x k B F) as (tn & V' & Fl). rewrite V in V'. inversion V'; subst tn. cbn [cf_of] in Fl. subst cf.
    exists k. exact V.
  Qed.

  Definition settled (K : N * N -> Prop) (stack seen : list N) (x : N) : Prop :=
    flg t x \/ ((forall cf i o, view t x = Some (TSource cf i o) -> K (i, o)) /\ forall m, component (view t) x m -> In m stack \/ In m seen).

  Lemma settled_all (K : N * N -> Prop) seen : (forall b, cf_byte b -> K b) -> (forall x, In x seen -> settled K [] seen x) ->
    forall x k, built_from (view t) x k -> In x seen -> forall cf i o, view t k = Some (TSource cf i o) -> K (i, o).
  Proof.
    intros HK H x k B. induction B as [x|x m k C B IH]; intros Hx cf i o V.
    - destruct (H x Hx) as [(tn & V' & Fl)|[S _]]; [|eapply S; exact V]. rewrite V in V'. inversion V'; subst tn. cbn [cf_of] in Fl. subst cf.
      apply HK. exists x. exact V.
    - destruct (H x Hx) as [F|[_ S]].
      + apply HK. apply (flg_derives x); [exact F|]. exists k, cf. split; [econstructor; eauto|exact V].
      + destruct (S m C) as [[]|Hm]. eapply IH; eauto.
  Qed.

  Definition walk_inv (K0 : N * N -> Prop) (root : N) (stack seen : list N) (ms : markers_t) : Prop :=
    exists K, marks ms P K /\ (forall b, K0 b -> K b) /\ (forall b, K b -> K0 b \/ derives (view t) root b) /\
      (forall x, In x stack -> in_use t x /\ built_from (view t) root x) /\
      (In root stack \/ In root seen) /\ (forall x, In x seen -> settled K stack seen x).

  Lemma walk_total (K0 : N * N -> Prop) root seen ms : (forall b, cf_byte b -> K0 b) -> in_use t root -> marks ms P K0 ->
    (forall x, In x seen -> settled K0 [] seen x) ->
    exists F ms' seen', (forall fuel, (F <= fuel)%nat -> dfs_walk d cavity_visit fuel root seen ms = Ok (ms', seen')) /\
      marks ms' P (fun b => K0 b \/ derives (view t) root b) /\
      (forall x, In x seen' -> settled (fun b => K0 b \/ derives (view t) root b) [] seen' x).
  Proof.
    intros HK U Mk Hs.
    destruct (dfs_total d t cavity_visit (proj1 I0) Dec (walk_inv K0 root)) with (stack := [root]) (seen := seen) (acc := ms) as (F & ms' & seen' & Iv & R).
    - intros l rest seen0 acc (K & Q1 & Q2 & Q3 & Q4 & Q5 & Q6) Hl. exists K. split; [exact Q1|]. split; [exact Q2|]. split; [exact Q3|].
      split; [intros x Hx; apply Q4; now right|]. split; [destruct Q5 as [[<-|H]|H]; auto|].
      intros x Hx. destruct (Q6 x Hx) as [H|[H1 H2]]; [now left|right]. split; [exact H1|]. intros m C. destruct (H2 m C) as [[<-|H]|H]; auto.
    - intros l rest seen0 acc (K & Q1 & Q2 & Q3 & Q4 & Q5 & Q6) Hl. destruct (Q4 l (or_introl eq_refl)) as [Ul Bl].
      destruct (wf_view t l (proj1 I0) Ul) as (tn & _ & V & Wt & _). assert (Pc := push_component t l tn V).
      (* the general step: [seen'] adds labels that are flagged *)
      assert (Go : forall (K' : N * N -> Prop) acc' extra, marks acc' P K' -> (forall b, K b -> K' b) -> (forall b, K' b -> K b \/ derives (view t) root b) ->
                (forall cf i o, tn = TSource cf i o -> K' (i, o)) -> (forall x, In x extra -> flg t x) ->
                walk_inv K0 root (push tn ++ rest) (extra ++ l :: seen0) acc').
      { intros K' acc' extra R1 R2 R3 R4 R5. exists K'. split; [exact R1|]. split; [auto|]. split; [intros b Hb; destruct (R3 b Hb); [apply Q3|]; auto|].
        split; [|split].
        - intros x Hx. apply in_app_or in Hx as [Hx|Hx]; [|apply Q4; now right]. apply Pc in Hx. split.
          + apply component_lt in Hx; [|exact (proj1 I0)]. unfold in_use in *. lia.
          + eapply built_from_trans; [exact Bl|]. econstructor; [exact Hx|constructor].
        - destruct Q5 as [[<-|H]|H]; [right; apply in_or_app; right; now left|left; apply in_or_app; now right|right; apply in_or_app; right; now right].
        - intros x Hx. apply in_app_or in Hx as [Hx|[<-|Hx]]; [left; now apply R5|right; split|].
          + intros cf i o Vx. rewrite V in Vx. inversion Vx; subst. eapply R4; reflexivity.
          + intros m C. left. apply in_or_app. left. now apply Pc.
          + destruct (Q6 x Hx) as [H|[H1 H2]]; [now left|right]. split; [intros cf i o Vx; apply R2; eapply H1; exact Vx|].
            intros m C. destruct (H2 m C) as [[<-|H]|H].
            * right. apply in_or_app. right. now left.
            * left. apply in_or_app. now right.
            * right. apply in_or_app. right. now right. }
      destruct tn as [cf i o|cf f la|cf lo hi].
      + destruct (mark_ok acc P K i o Q1) as (acc' & E & Mk'); [apply HP; eauto|].
        exists (TSource cf i o), acc', (l :: seen0). split; [exact V|]. split; [cbn [node_of cavity_visit]; rewrite E; reflexivity|]. split; [apply incl_refl|].
        refine (Go _ acc' [] Mk' _ _ _ _).
        * intros b Hb. now left.
        * intros b [Hb| ->]; [now left|right]. exists l, cf. split; [exact Bl|exact V].
        * intros cf' i' o' E'. inversion E'; subst. now right.
        * intros x [].
      + exists (TRange cf f la), acc, (if cf then py_range f (la + 1) ++ l :: seen0 else l :: seen0). split; [exact V|]. split; [reflexivity|].
        assert (Fl : cf = true -> forall x, In x (py_range f (la + 1)) -> flg t x).
        { intros -> x Hx. apply in_py_range in Hx. apply (proj2 I0 l x); [exists (TRange true f la); auto|]. eapply comp_range; [exact V|lia]. }
        split; [destruct cf; [intros x Hx; apply in_or_app; now right|apply incl_refl]|].
        destruct cf; [apply (Go K acc (py_range f (la + 1)))|apply (Go K acc [])]; auto; try discriminate. intros x [].
      + exists (TUnion cf lo hi), acc, (if cf then lo :: hi :: l :: seen0 else l :: seen0). split; [exact V|]. split; [reflexivity|].
        assert (Fl : cf = true -> forall x, In x [lo; hi] -> flg t x).
        { intros -> x Hx. apply (proj2 I0 l x); [exists (TUnion true lo hi); auto|]. destruct Hx as [<-|[<-|[]]]; [eapply comp_lower|eapply comp_higher]; exact V. }
        split; [destruct cf; [intros x Hx; right; now right|apply incl_refl]|].
        destruct cf; [apply (Go K acc [lo; hi])|apply (Go K acc [])]; auto; try discriminate. intros x [].
    - exists K0. split; [exact Mk|]. split; [auto|]. split; [auto|]. split; [intros x [<-|[]]; split; [exact U|constructor]|]. split; [left; now left|].
      intros x Hx. destruct (Hs x Hx) as [H|[H1 H2]]; [now left|right]. split; [exact H1|]. intros m C. destruct (H2 m C) as [[]|H]. now right.
    - destruct Iv as (K & Q1 & Q2 & Q3 & _ & Q5 & Q6). exists F, ms', seen'. split; [exact R|].
      assert (HK' : forall b, K b <-> K0 b \/ derives (view t) root b).
      { intros b. split; [apply Q3|]. intros [H|(k & cf & B & V)]; [now apply Q2|]. destruct b as [i o]. cbn [fst snd] in V.
        eapply (settled_all K seen'); [intros b Hb; now apply Q2, HK|exact Q6|exact B|destruct Q5 as [[]|Q5]; exact Q5|exact V]. }
      split; [eapply marks_ext; [| |exact Q1]; [reflexivity|exact HK']|].
      intros x Hx. destruct (Q6 x Hx) as [H|[H1 H2]]; [now left|right]. split; [intros cf i o Vx; apply HK'; eapply H1; exact Vx|exact H2].
  Qed.

  Lemma settled_weaken (K K' : N * N -> Prop) seen x : (forall b, K b -> K' b) -> settled K [] seen x -> settled K' [] seen x.
  Proof. intros H [F|[A B]]; [now left|right]. split; [intros cf i o V; apply H; eapply A; exact V|exact B]. Qed.

  Lemma sinks_spec sinks : Forall (fun k => in_use t (sk_label k)) sinks -> forall (K0 : N * N -> Prop) seen ms,
    (forall b, cf_byte b -> K0 b) -> marks ms P K0 -> (forall x, In x seen -> settled K0 [] seen x) ->
    exists F ms', (forall fuel, (F <= fuel)%nat -> cavity_sinks fuel d sinks ms seen = Ok ms') /\
      marks ms' P (fun b => K0 b \/ exists k, In k sinks /\ derives (view t) (sk_label k) b).
  Proof.
    induction 1 as [|k sinks U H IH]; intros K0 seen ms HK Mk Hs.
    - exists O, ms. split; [reflexivity|]. eapply marks_ext; [| |exact Mk]; [reflexivity|]. intros b. split; [now left|]. intros [Hb|(k & [] & _)]. exact Hb.
    - destruct (wf_view t (sk_label k) (proj1 I0) U) as (tn & _ & V & Wt & _).
      assert (Fin : forall K1 : N * N -> Prop, (forall b, K1 b <-> K0 b \/ derives (view t) (sk_label k) b) -> forall ms1 seen1 F1,
        marks ms1 P K1 -> (forall x, In x seen1 -> settled K1 [] seen1 x) ->
        (forall fuel, (F1 <= fuel)%nat -> cavity_sinks fuel d (k :: sinks) ms seen = cavity_sinks fuel d sinks ms1 seen1) ->
        exists F ms', (forall fuel, (F <= fuel)%nat -> cavity_sinks fuel d (k :: sinks) ms seen = Ok ms') /\
          marks ms' P (fun b => K0 b \/ exists k', In k' (k :: sinks) /\ derives (view t) (sk_label k') b)).
      { intros K1 E1 ms1 seen1 F1 Mk1 Hs1 R1. destruct (IH K1 seen1 ms1) as (F2 & ms' & R2 & Mk2); [intros b Hb; apply E1; left; now apply HK|exact Mk1|exact Hs1|].
        exists (Nat.max F1 F2), ms'. split; [intros fuel Hf; rewrite R1 by lia; apply R2; lia|].
        eapply marks_ext; [| |exact Mk2]; [reflexivity|]. intros b. cbv beta; rewrite E1. split.
        - intros [[X|X]|(k' & A & B)]; [now left|right; exists k; split; [now left|exact X]|right; exists k'; split; [now right|exact B]].
        - intros [X|(k' & [<-|A] & B)]; [left; now left|left; now right|right; exists k'; auto]. }
      assert (Run : forall fuel, cavity_sinks fuel d (k :: sinks) ms seen =
         if node_cf (node_of tn) then cavity_sinks fuel d sinks ms seen else
         match node_of tn with
         | PySource idx offset _ => do ms' <- mark ms idx offset; cavity_sinks fuel d sinks ms' seen
         | _ => do p <- dfs_walk d cavity_visit fuel (sk_label k) seen ms; cavity_sinks fuel d sinks (fst p) (snd p)
         end).
      { intros fuel. cbn [cavity_sinks]. rewrite (Dec _ _ V). reflexivity. }
      assert (Cf : node_cf (node_of tn) = cf_of tn) by (destruct tn; reflexivity). rewrite Cf in Run.
      destruct (cf_of tn) eqn:Fl.
      + apply (Fin K0) with (ms1 := ms) (seen1 := seen) (F1 := O); [|exact Mk|exact Hs|intros; apply Run].
        intros b. split; [now left|]. intros [X|X]; [exact X|]. apply HK. apply (flg_derives (sk_label k)); [exists tn; auto|exact X].
      + assert (Walk : exists F ms' seen', (forall fuel, (F <= fuel)%nat -> dfs_walk d cavity_visit fuel (sk_label k) seen ms = Ok (ms', seen')) /\
          marks ms' P (fun b => K0 b \/ derives (view t) (sk_label k) b) /\
          (forall x, In x seen' -> settled (fun b => K0 b \/ derives (view t) (sk_label k) b) [] seen' x)) by (now apply walk_total).
        destruct Walk as (F1 & ms1 & seen1 & R1 & Mk1 & Hs1).
        destruct tn as [cf i o|cf f la|cf lo hi]; cbn [node_of] in Run.
        * destruct (mark_ok ms P K0 i o Mk) as (ms2 & E & Mk2); [apply HP; eauto|].
          apply (Fin (fun b => K0 b \/ b = (i, o))) with (ms1 := ms2) (seen1 := seen) (F1 := O).
          -- intros b. split; (intros [X|X]; [now left|right]).
             ++ subst b. exists (sk_label k), cf. split; [constructor|exact V].
             ++ destruct X as (x & cf' & B & Vx). inversion B as [|? m ? C]; subst.
                ** rewrite V in Vx. inversion Vx; subst. destruct b; reflexivity.
                ** exfalso. apply (push_component _ _ _ V) in C. exact C.
          -- exact Mk2.
          -- intros x Hx. eapply settled_weaken; [|now apply Hs]. intros b Hb. now left.
          -- intros fuel _. rewrite Run, E. reflexivity.
        * apply (Fin _ (fun b => iff_refl _)) with (ms1 := ms1) (seen1 := seen1) (F1 := F1); [exact Mk1|exact Hs1|]. intros fuel Hf. rewrite Run, R1 by exact Hf. reflexivity.
        * apply (Fin _ (fun b => iff_refl _)) with (ms1 := ms1) (seen1 := seen1) (F1 := F1); [exact Mk1|exact Hs1|]. intros fuel Hf. rewrite Run, R1 by exact Hf. reflexivity.
  Qed.
End Cav.

(** ** Merging by file name *)
Lemma path_eqb_iff p q : path_eqb p q = true <-> p = q.
Proof.
  unfold path_eqb. split.
  - intros H. apply andb_true_iff in H as [H1 H2]. apply names_eqb_eq in H2. apply list_eqb_eq in H1; [|intros x y; apply N.eqb_eq]. destruct p, q; cbn [fst snd] in *. congruence.
  - intros <-. assert (R : forall {A} (e : A -> A -> bool), (forall x, e x x = true) -> forall l, list_eqb e l l = true).
    { intros A e He. induction l as [|x l IH]; cbn [list_eqb]; [reflexivity|]. now rewrite He, IH. }
    rewrite (R N N.eqb N.eqb_refl), (R _ (list_eqb N.eqb) (R N N.eqb N.eqb_refl)). reflexivity.
Qed.

Lemma zip_or_spec x : forall y o, get (zip_or x y) o = match get x o, get y o with Some a, Some b => Some (N.lor a b) | _, _ => None end.
Proof.
  unfold zip_or, get. induction x as [|a x IH]; intros y o; cbn [combine map].
  - destruct (N.to_nat o); reflexivity.
  - destruct y as [|b y]; cbn [combine map].
    + destruct (N.to_nat o) as [|n]; cbn [nth_error]; [reflexivity|]. destruct (nth_error x n); reflexivity.
    + destruct (N.to_nat o) as [|n] eqn:E; cbn [nth_error fst snd]; [reflexivity|].
      specialize (IH y (N.of_nat n)). rewrite Nat2N.id in IH. exact IH.
Qed.

Section Merge.
  Variables (d : tdfile) (path : N -> py_path).

  Record merged_inv (mg : list (py_path * list N)) (done : list (N * list N)) : Prop := {
    mg_nodup : NoDup (map fst mg);
    mg_in : forall p, dict_get path_eqb mg p <> None <-> exists k m, In (k, m) done /\ path k = p;
    mg_len : forall p v, dict_get path_eqb mg p = Some v -> forall o, o < len v <-> forall k m, In (k, m) done -> path k = p -> o < len m;
    mg_val : forall p v o x, dict_get path_eqb mg p = Some v -> get v o = Some x ->
      (x <> 0 <-> exists k m y, In (k, m) done /\ path k = p /\ get m o = Some y /\ y <> 0) }.

  Lemma merge_spec ms : (forall k m, In (k, m) ms -> exists h, td_fd_header d k = Ok h /\ fst h = path k) ->
    forall mg done, merged_inv mg done -> exists mg', merge_markers d ms mg = Ok mg' /\ merged_inv mg' (done ++ ms).
  Proof.
    induction ms as [|[k v] ms IH]; intros H mg done Mi; cbn [merge_markers].
    - exists mg. rewrite app_nil_r. auto.
    - destruct (H k v (or_introl eq_refl)) as (h & -> & Eh). cbn [bind]. cbv zeta. rewrite Eh.
      set (mg1 := match dict_get path_eqb mg (path k) with Some old => dict_set path_eqb mg (path k) (zip_or old v) | None => dict_set path_eqb mg (path k) v end).
      replace (done ++ (k, v) :: ms) with ((done ++ [(k, v)]) ++ ms) by (rewrite <- app_assoc; reflexivity).
      apply IH; [intros; eapply H; right; eauto|]. destruct Mi as [G1 G2 G3 G4].
      assert (Old : forall p, p <> path k -> dict_get path_eqb mg1 p = dict_get path_eqb mg p).
      { intros p Hp. unfold mg1. destruct (dict_get path_eqb mg (path k)); now apply (dict_other path_eqb path_eqb_iff). }
      assert (New : dict_get path_eqb mg1 (path k) = Some (match dict_get path_eqb mg (path k) with Some old => zip_or old v | None => v end)).
      { unfold mg1. destruct (dict_get path_eqb mg (path k)); apply (dict_same path_eqb path_eqb_iff). }
      assert (Lz : forall x y o, o < len (zip_or x y) <-> o < len x /\ o < len y).
      { intros x y o. assert (Z := zip_or_spec x y o). split.
        - intros L. apply get_lt in L as (z & Gz). rewrite Gz in Z. destruct (get x o) eqn:Gx; [|discriminate]. destruct (get y o) eqn:Gy; [|discriminate].
          apply get_some in Gx, Gy. auto.
        - intros [Lx Ly]. apply get_lt in Lx as (a & Gx), Ly as (b & Gy). rewrite Gx, Gy in Z. now apply get_some in Z. }
      constructor.
      + unfold mg1. destruct (dict_get path_eqb mg (path k)); now apply (dict_nodup path_eqb path_eqb_iff).
      + intros p. destruct (path_eqb p (path k)) eqn:E.
        * apply path_eqb_iff in E. subst p. rewrite New. split; [intros _|discriminate]. exists k, v. split; [apply in_or_app; right; now left|reflexivity].
        * assert (Ne : p <> path k) by (intros X; apply path_eqb_iff in X; congruence). rewrite Old by exact Ne. rewrite G2. split.
          -- intros (k' & m & A & B). exists k', m. split; [apply in_or_app; now left|exact B].
          -- intros (k' & m & A & B). apply in_app_or in A as [A|[A|[]]]; [eauto|]. inversion A; subst. congruence.
      + intros p w Gw o. destruct (path_eqb p (path k)) eqn:E.
        * apply path_eqb_iff in E. subst p. rewrite New in Gw. inversion Gw; subst w. clear Gw.
          destruct (dict_get path_eqb mg (path k)) as [old|] eqn:Go.
          -- rewrite Lz, (G3 _ _ Go). split.
             ++ intros [A B] k' m Hin Hp. apply in_app_or in Hin as [Hin|[Hin|[]]]; [eauto|]. inversion Hin; subst. exact B.
             ++ intros A. split; [intros k' m Hin Hp; apply (A k' m); [apply in_or_app; now left|exact Hp]|]. apply (A k v); [apply in_or_app; right; now left|reflexivity].
          -- split.
             ++ intros A k' m Hin Hp. apply in_app_or in Hin as [Hin|[Hin|[]]]; [exfalso; apply (proj2 (G2 (path k))); eauto|]. inversion Hin; subst. exact A.
             ++ intros A. apply (A k v); [apply in_or_app; right; now left|reflexivity].
        * assert (Ne : p <> path k) by (intros X; apply path_eqb_iff in X; congruence). rewrite Old in Gw by exact Ne. rewrite (G3 _ _ Gw). split.
          -- intros A k' m Hin Hp. apply in_app_or in Hin as [Hin|[Hin|[]]]; [eauto|]. inversion Hin; subst. congruence.
          -- intros A k' m Hin Hp. apply (A k' m); [apply in_or_app; now left|exact Hp].
      + intros p w o x Gw Gx. destruct (path_eqb p (path k)) eqn:E.
        * apply path_eqb_iff in E. subst p. rewrite New in Gw. inversion Gw; subst w. clear Gw.
          destruct (dict_get path_eqb mg (path k)) as [old|] eqn:Go.
          -- rewrite zip_or_spec in Gx. destruct (get old o) as [a|] eqn:Ga; [|discriminate]. destruct (get v o) as [b|] eqn:Gb; [|discriminate].
             inversion Gx; subst x. assert (Hl : N.lor a b <> 0 <-> a <> 0 \/ b <> 0).
             { rewrite N.lor_eq_0_iff. destruct (N.eq_dec a 0), (N.eq_dec b 0); tauto. }
             rewrite Hl, (G4 _ _ _ _ Go Ga). split.
             ++ intros [(k' & m & y & A & B & C)|Nb]; [exists k', m, y; split; [apply in_or_app; now left|auto]|].
                exists k, v, b. split; [apply in_or_app; right; now left|auto].
             ++ intros (k' & m & y & A & B & C & D). apply in_app_or in A as [A|[A|[]]]; [left; exists k', m, y; auto|]. inversion A; subst k' m. right. congruence.
          -- split.
             ++ intros Nx. exists k, v, x. split; [apply in_or_app; right; now left|auto].
             ++ intros (k' & m & y & A & B & C & D). apply in_app_or in A as [A|[A|[]]]; [exfalso; apply (proj2 (G2 (path k))); eauto|]. inversion A; subst k' m. congruence.
        * assert (Ne : p <> path k) by (intros X; apply path_eqb_iff in X; congruence). rewrite Old in Gw by exact Ne. rewrite (G4 _ _ _ _ Gw Gx). split.
          -- intros (k' & m & y & A & B). exists k', m, y. split; [apply in_or_app; now left|exact B].
          -- intros (k' & m & y & A & B & C). apply in_app_or in A as [A|[A|[]]]; [exists k', m, y; auto|]. inversion A; subst. congruence.
  Qed.
End Merge.

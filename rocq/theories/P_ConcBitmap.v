From Coq Require Import NArith List Bool Lia.
From Verif Require Import M_Base M_Memory M_Bitmap M_Conc M_ConcBitmap M_PySections S_Bitmap P_Base P_Memory P_PyBase P_Bitmap P_Conc.
Import ListNotations.
Open Scope N_scope.

Definition call_of (o : bop) : bcall :=
  match o with BSet k => CSet k | BRange f n => CRange f n end.
Definition last_of (o : bop) : N :=
  match o with BSet k => k / 64 | BRange f n => range_last f n end.
Definition nonempty (o : bop) : Prop := match o with BSet _ => True | BRange _ n => 0 < n end.

(** The bits an access is responsible for, and the number of buckets it reports. *)
Definition acov (a : baction) (i : N) : Prop :=
  match a with
  | ALoad k bits | ACas k bits _ => i / 64 = k /\ N.testbit bits (i mod 64) = true
  | AStore k => i / 64 = k
  | _ => False
  end.
Definition aused (a : baction) : option N :=
  match a with AUsedLoad v | AUsedCas v _ => Some v | _ => None end.

(** An access that belongs to operation [o]. *)
Definition aok (bc : N) (o : bop) (a : baction) : Prop :=
  (forall i, acov a i -> asks o i) /\
  match a with
  | ALoad k bits | ACas k bits _ => k < bc /\ bits < two64
  | AStore k => k < bc
  | AUsedLoad v => v = last_of o + 1
  | AUsedCas v old => v = last_of o + 1 /\ old <= v
  end.

Lemma shift_bound b : N.shiftr all_bits_set b < two64.
Proof. pose proof (mask_bound (N.shiftr all_bits_set b) b) as M. now rewrite N.land_diag in M. Qed.

Lemma div64 i : i = 64 * (i / 64) + i mod 64 /\ i mod 64 < 64.
Proof. split; [apply N.div_mod; lia|apply N.mod_lt; lia]. Qed.

Lemma in_range_true lo hi i : in_range lo hi i = true <-> lo <= i /\ i < hi.
Proof. unfold in_range. rewrite andb_true_iff, N.leb_le, N.ltb_lt. tauto. Qed.

Lemma accesses_spec cap l o : cap < two64 -> 8 * bucket_count cap <= l -> bop_ok cap o ->
  exists acts, accesses cap l (call_of o) = Ok acts /\
    Forall (aok (bucket_count cap) o) acts /\
    (forall i, asks o i -> exists a, In a acts /\ acov a i) /\
    (nonempty o -> exists a, In a acts /\ aused a = Some (last_of o + 1)) /\
    (acts <> [] -> nonempty o).
Proof.
  intros C L K.
  assert (CB : cap <= 64 * bucket_count cap).
  { destruct (div64 (cap + 64 - 1)). unfold bucket_count, bits_per_bucket. lia. }
  destruct o as [k|first n]; cbn [bop_ok call_of accesses] in *.
  - destruct (N.leb_spec cap k); [lia|]. unfold bits_per_bucket.
    assert (BG := bucket_count_ge cap k K). destruct (div64 k) as [D1 D2].
    assert (A1 : add64 (k / 64) 1 = k / 64 + 1).
    { unfold add64. apply N.mod_small. unfold two64 in *. lia. }
    rewrite A1. eexists. split; [reflexivity|].
    assert (TB : forall j, N.testbit (N.shiftl 1 (k mod 64)) j = true <-> j = k mod 64).
    { intros j. rewrite N.shiftl_1_l, N.pow2_bits_eqb. rewrite N.eqb_eq. split; auto. }
    split; [|split; [|split]].
    + apply Forall_cons; [|apply Forall_cons; [|apply Forall_nil]].
      * split.
        -- cbn [acov asks]. intros i [E1 E2]. apply TB in E2. destruct (div64 i). lia.
        -- split; [exact BG|]. rewrite N.shiftl_1_l. change two64 with (2 ^ 64). apply N.pow_lt_mono_r; lia.
      * split; [intros i []|reflexivity].
    + cbn [asks]. intros i ->. eexists. split; [left; reflexivity|]. cbn [acov]. split; [reflexivity|]. now apply TB.
    + intros _. eexists. split; [right; left; reflexivity|reflexivity].
    + intros _. exact I.
  - destruct (N.eqb_spec n 0) as [->|Nz].
    { exists []. split; [reflexivity|]. split; [apply Forall_nil|]. cbn [asks nonempty]. split; [intros; lia|]. split; [intros; lia|congruence]. }
    destruct K as [K|K]; [lia|].
    destruct (N.leb_spec cap first); [lia|].
    assert (A0 : add64 first n = first + n) by (unfold add64; apply N.mod_small; lia).
    rewrite A0. destruct (N.ltb_spec cap (first + n)); [lia|].
    unfold bits_per_bucket. destruct (div64 first) as [D1 D2].
    set (cur := first / 64) in *. set (st := first mod 64) in *. set (bc := bucket_count cap) in *.
    assert (P1 : exists a1 n1 cur1,
      (if negb (st =? 0) then
          let bit_end := N.min (add64 st n) 64 in
          let mask := N.land (shl64 all_bits_set st) (N.shiftr all_bits_set (64 - bit_end)) in
          ([ALoad cur mask], n - (bit_end - st), cur + 1)
        else ([], n, cur)) = (a1, n1, cur1) /\
      Forall (aok bc (BRange first n)) a1 /\
      (forall i, first <= i -> i < first + n - n1 -> exists a, In a a1 /\ acov a i) /\
      n1 <= n /\ cur <= cur1 /\ cur1 <= bc /\
      (n1 = 0 \/ first + n - n1 = 64 * cur1) /\ (n1 = 0 -> cur1 = cur + 1 /\ first + n <= 64 * (cur + 1) /\ st <> 0) /\
      (st = 0 \/ cur1 = cur + 1)).
    { destruct (N.eqb_spec st 0) as [Z|Z]; cbn [negb].
      - exists [], n, cur. split; [reflexivity|]. split; [apply Forall_nil|]. split; [intros; lia|]. lia.
      - cbv zeta. unfold add64. rewrite N.mod_small by lia.
        set (be := N.min (st + n) 64). assert (BE : st < be /\ be <= 64 /\ be <= st + n) by (unfold be; lia).
        assert (TB : forall j, j < 64 -> N.testbit (N.land (shl64 all_bits_set st) (N.shiftr all_bits_set (64 - be))) j = true <-> st <= j /\ j < be).
        { intros j J. rewrite mask_pre_bits by lia. apply in_range_true. }
        eexists _, _, _. split; [reflexivity|]. split; [|split].
        + apply Forall_cons; [|apply Forall_nil]. split.
          * cbn [acov asks]. intros i [E1 E2]. destruct (div64 i) as [I1 I2]. apply (TB _ I2) in E2. lia.
          * split; [lia|apply mask_bound].
        + intros i I1 I2. eexists. split; [left; reflexivity|]. cbn [acov]. destruct (div64 i) as [J1 J2].
          assert (i / 64 = cur) by (symmetry; apply N.div_unique with (i - 64 * cur); lia).
          split; [assumption|]. apply (TB _ J2). lia.
        + assert (be = 64 \/ be = st + n) by (unfold be; lia). lia. }
    destruct P1 as (a1 & n1 & cur1 & E0 & F1 & V1 & Q1 & Q2 & Q3 & Q4 & Q5 & Q7).
    cbv zeta in E0. cbv zeta. rewrite E0. cbv iota beta zeta.
    destruct (div64 n1) as [E1 E2].
    replace ((n1 + 64 - 1) / 64) with (n1 / 64 + (if n1 mod 64 =? 0 then 0 else 1)).
    2:{ destruct (N.eqb_spec (n1 mod 64) 0) as [Z|Z].
        - apply N.div_unique with 63; lia.
        - apply N.div_unique with (n1 mod 64 - 1); lia. }
    match goal with |- context [l <? ?x] => destruct (N.ltb_spec l x) as [X|X] end.
    { exfalso. revert X. destruct (N.eqb_spec (n1 mod 64) 0); intros X; lia. }
    set (nf := n1 / 64) in *.
    assert (U : cur1 + nf = range_last first n).
    { unfold range_last. fold cur st. destruct (N.eqb_spec n1 0) as [Z|Z].
      - destruct (Q5 Z) as (U1 & U2 & U3). subst n1. assert (nf = 0) by reflexivity.
        destruct (N.eqb_spec st 0); [lia|]. cbn [negb andb].
        destruct (N.leb_spec (first + n) (64 * (cur + 1))); lia.
      - destruct Q4 as [Q4|Q4]; [lia|].
        assert (V : (negb (st =? 0) && (first + n <=? 64 * (cur + 1))) = false).
        { destruct (N.eqb_spec st 0); [reflexivity|]. cbn [negb andb]. apply N.leb_gt.
          destruct Q7 as [Q7|Q7]; lia. }
        rewrite V. apply N.div_unique with (n1 mod 64); lia. }
    assert (R2 : n1 - nf * 64 = n1 mod 64) by lia. rewrite R2.
    assert (Au : add64 (cur1 + nf) 1 = cur1 + nf + 1).
    { unfold add64. apply N.mod_small. unfold two64 in *. lia. }
    rewrite Au. eexists. split; [reflexivity|].
    assert (TB : 0 < n1 mod 64 -> forall j, j < 64 -> N.testbit (N.shiftr all_bits_set (64 - n1 mod 64)) j = true <-> j < n1 mod 64).
    { intros _ j J. rewrite mask_post_bits by lia. rewrite in_range_true. split; [intros [? ?]; assumption|intros; split; [lia|assumption]]. }
    split; [|split; [|split]].
    + apply Forall_app. split; [exact F1|]. apply Forall_app. split; [|apply Forall_app; split].
      * apply Forall_forall. intros a Ia. apply in_map_iff in Ia. destruct Ia as (k & <- & Ik). apply in_nseq in Ik.
        rewrite N2Nat.id in Ik. destruct Q4 as [Q4|Q4]; [subst n1; change nf with 0 in Ik; lia|].
        split; [|lia]. cbn [acov asks]. intros i <-. destruct (div64 i). lia.
      * destruct (N.ltb_spec 0 (n1 mod 64)) as [R|R]; [|apply Forall_nil]. apply Forall_cons; [|apply Forall_nil].
        destruct Q4 as [Q4|Q4]; [subst n1; change (0 mod 64) with 0 in R; lia|].
        split.
        -- cbn [acov asks]. intros i [G1 G2]. destruct (div64 i) as [I1 I2]. apply (TB R _ I2) in G2. lia.
        -- split; [lia|apply shift_bound].
      * apply Forall_cons; [|apply Forall_nil]. split; [intros i []|]. cbn [last_of]. lia.
    + cbn [asks]. intros i [I1 I2]. destruct (N.lt_ge_cases i (first + n - n1)) as [Y|Y].
      * destruct (V1 i I1 Y) as (a & Ia & Va). exists a. split; [|exact Va]. apply in_or_app. now left.
      * destruct Q4 as [Q4|Q4]; [lia|]. destruct (div64 i) as [J1 J2].
        destruct (N.lt_ge_cases i (64 * (cur1 + nf))) as [Y2|Y2].
        -- exists (AStore (i / 64)). split; [|reflexivity]. apply in_or_app. right. apply in_or_app. left.
           apply in_map. apply in_nseq. rewrite N2Nat.id. lia.
        -- exists (ALoad (cur1 + nf) (N.shiftr all_bits_set (64 - n1 mod 64))).
           assert (R : 0 < n1 mod 64) by lia. split.
           ++ apply in_or_app. right. apply in_or_app. right. apply in_or_app. left.
              destruct (N.ltb_spec 0 (n1 mod 64)); [now left|lia].
           ++ cbn [acov]. assert (i / 64 = cur1 + nf) by (symmetry; apply N.div_unique with (i - 64 * (cur1 + nf)); lia).
              split; [assumption|]. apply (TB R _ J2). lia.
    + intros _. exists (AUsedLoad (cur1 + nf + 1)). split; [|cbn [aused last_of]; now rewrite U].
      apply in_or_app. right. apply in_or_app. right. apply in_or_app. right. now left.
    + intros _. cbn [nonempty]. lia.
Qed.

(** ** The invariant of interleavings *)
Definition tcov (t : bthread) (i : N) : Prop :=
  (exists a, In a (bt_now t) /\ acov a i) \/ (exists o, In (call_of o) (bt_todo t) /\ asks o i).
Definition tuse (t : bthread) (v : N) : Prop :=
  (exists a, In a (bt_now t) /\ aused a = Some v) \/ (exists o, In (call_of o) (bt_todo t) /\ nonempty o /\ v = last_of o + 1).
Definition anyt (P : bthread -> Prop) (ts : list bthread) : Prop := exists j t, get ts j = Some t /\ P t.

Lemma call_of_inj o o' : call_of o = call_of o' -> o = o'.
Proof. destruct o, o'; cbn; congruence. Qed.

Lemma anyt_step (P : bthread -> Prop) (Q : Prop) ts i t t' : get ts i = Some t -> (P t -> P t' \/ Q) ->
  anyt P ts -> anyt P (upd ts i t') \/ Q.
Proof.
  intros G H (j & tj & Gj & Pj). assert (Li := get_some _ _ _ G). destruct (N.eq_dec i j) as [->|Hne].
  - rewrite G in Gj. injection Gj as <-. destruct (H Pj) as [Y|Y]; [left|right; exact Y].
    exists j, t'. split; [now apply get_upd_eq|exact Y].
  - left. exists j, tj. split; [|exact Pj]. now rewrite get_upd_neq.
Qed.

Section Inv.
Variables (b l cap : N) (m0 : mem) (ops : list bop).
Hypothesis Hcap : cap < two64.
Hypothesis Hlen : 8 * bucket_count cap <= l.
Hypothesis Hops : Forall (bop_ok cap) ops.

Record cbinv (s : bshared) (ts : list bthread) : Prop := {
  cb_geo : bm_beg (bs_map s) = b /\ bm_len (bs_map s) = l /\ bm_cap (bs_map s) = cap;
  cb_bytes : all_bytes (bs_mem s);
  cb_only : forall i, 8 * (i / 64) + 8 <= l -> mbit (bs_mem s) (bs_map s) i = true -> asked ops i;
  cb_all : forall i, asked ops i -> mbit (bs_mem s) (bs_map s) i = true \/ anyt (fun t => tcov t i) ts;
  cb_used : forall o, In o ops -> nonempty o -> last_of o + 1 <= bs_used s \/ anyt (fun t => tuse t (last_of o + 1)) ts;
  cb_small : bs_used s = 0 \/ exists o, In o ops /\ nonempty o /\ bs_used s = last_of o + 1;
  cb_thr : forall j t, get ts j = Some t ->
     (forall a, In a (bt_now t) -> exists o, In o ops /\ nonempty o /\ aok (bucket_count cap) o a) /\
     (forall c, In c (bt_todo t) -> exists o, In o ops /\ c = call_of o);
  cb_frame : forall a, a < b \/ b + 8 * bucket_count cap <= a -> bs_mem s a = m0 a
}.

Lemma cbinv_step s ts i ch t t' s' : cbinv s ts -> get ts i = Some t -> bstep i ch t s = Some (t', s') -> cbinv s' (upd ts i t').
Proof.
  intros [Geo By On Al Us Sm Th Fr] G E. assert (Li := get_some _ _ _ G).
  destruct (Th i t G) as [Tn Td].
  (* what has to be shown for a step of one thread *)
  assert (Build : forall t' m' u',
     all_bytes m' ->
     let s1 := mkBs m' (mkBm (bm_beg (bs_map s)) (bm_len (bs_map s)) (bm_cap (bs_map s)) u') in
     (forall x, 8 * (x / 64) + 8 <= l -> mbit m' (bs_map s1) x = true -> mbit (bs_mem s) (bs_map s) x = true \/ asked ops x) ->
     (forall x, mbit (bs_mem s) (bs_map s) x = true -> mbit m' (bs_map s1) x = true) ->
     (forall x, asked ops x -> tcov t x -> tcov t' x \/ mbit m' (bs_map s1) x = true) ->
     bs_used s <= u' ->
     (forall v, tuse t v -> tuse t' v \/ v <= u') ->
     (u' = bs_used s \/ exists o, In o ops /\ nonempty o /\ u' = last_of o + 1) ->
     (forall a, In a (bt_now t') -> exists o, In o ops /\ nonempty o /\ aok (bucket_count cap) o a) ->
     (forall c, In c (bt_todo t') -> exists o, In o ops /\ c = call_of o) ->
     (forall a, a < b \/ b + 8 * bucket_count cap <= a -> m' a = bs_mem s a) ->
     cbinv s1 (upd ts i t')).
  { clear E t'. intros t' m' u' B1 s1 B2 B3 B4 B5 B6 B7 B8 B9 B10. constructor.
    - exact Geo.
    - exact B1.
    - intros x X1 X2. destruct (B2 x X1 X2) as [Y|Y]; [now apply On|exact Y].
    - intros x X1. destruct (Al x X1) as [Y|Y]; [left; now apply B3|].
      destruct (anyt_step _ (mbit m' (bs_map s1) x = true) ts i t t' G (B4 x X1) Y); auto.
    - intros o O1 O2. destruct (Us o O1 O2) as [Y|Y].
      + left. unfold bs_used, s1. cbn [bs_map bm_used]. lia.
      + destruct (anyt_step _ (last_of o + 1 <= u') ts i t t' G (B6 (last_of o + 1)) Y); auto.
    - unfold bs_used, s1. cbn [bs_map bm_used]. destruct B7 as [->|Y]; [exact Sm|right; exact Y].
    - intros j tj Gj. destruct (N.eq_dec i j) as [->|Hne].
      + rewrite get_upd_eq in Gj by auto. injection Gj as <-. auto.
      + rewrite get_upd_neq in Gj by auto. now apply (Th j).
    - intros a Ha. unfold s1. cbn [bs_mem]. rewrite B10 by auto. now apply Fr. }
  assert (Same : mkBs (bs_mem s) (mkBm (bm_beg (bs_map s)) (bm_len (bs_map s)) (bm_cap (bs_map s)) (bs_used s)) = s).
  { destruct s as [? []]; reflexivity. }
  assert (Build0 : forall t',
     (forall x, asked ops x -> tcov t x -> tcov t' x \/ mbit (bs_mem s) (bs_map s) x = true) ->
     (forall v, tuse t v -> tuse t' v \/ v <= bs_used s) ->
     (forall a, In a (bt_now t') -> exists o, In o ops /\ nonempty o /\ aok (bucket_count cap) o a) ->
     (forall c, In c (bt_todo t') -> exists o, In o ops /\ c = call_of o) ->
     cbinv s (upd ts i t')).
  { clear E t'. intros t' C1 C2 C3 C4. rewrite <- Same. apply Build; auto. lia. }
  unfold bstep in E. destruct (bt_now t) as [|a r] eqn:En.
  - destruct (bt_todo t) as [|c rest] eqn:Et; [discriminate|].
    destruct (Td c (or_introl eq_refl)) as (o & Io & ->).
    assert (Ko : bop_ok cap o) by (rewrite Forall_forall in Hops; now apply Hops).
    destruct (accesses_spec cap l o Hcap Hlen Ko) as (acts & Ea & A1 & A2 & A3 & A4).
    destruct Geo as (G1 & G2 & G3). rewrite G2, G3, Ea in E. injection E as <- <-. apply Build0.
    + intros x _ [(a & Ia & _)|(o' & Io' & Va)]; [rewrite En in Ia; contradiction|]. rewrite Et in Io'.
      destruct Io' as [Eo|Io'].
      * apply call_of_inj in Eo. subst o'. left. left. cbn [bt_now]. now apply A2.
      * left. right. exists o'. split; [exact Io'|exact Va].
    + intros v [(a & Ia & _)|(o' & Io' & Ne & ->)]; [rewrite En in Ia; contradiction|]. rewrite Et in Io'.
      destruct Io' as [Eo|Io'].
      * apply call_of_inj in Eo. subst o'. left. left. cbn [bt_now]. now apply A3.
      * left. right. exists o'. split; [exact Io'|auto].
    + cbn [bt_now]. intros a Ia. exists o. split; [exact Io|]. split; [apply A4; destruct acts; [contradiction|discriminate]|].
      rewrite Forall_forall in A1. now apply A1.
    + cbn [bt_todo]. intros c Ic. apply Td. now right.
  - destruct (Tn a (or_introl eq_refl)) as (o & Io & Ne & Ka & Kb).
    assert (Tr : forall a', In a' r -> exists o, In o ops /\ nonempty o /\ aok (bucket_count cap) o a').
    { intros a' Ia'. apply Tn. now right. }
    (* dropping the first access *)
    assert (Drop1 : forall (P : N -> Prop), (forall x, acov a x -> P x) -> forall x, tcov t x -> tcov (mkBt r (bt_todo t)) x \/ P x).
    { intros P HP x [(a' & Ia' & Va')|Y]; [|left; right; exact Y]. rewrite En in Ia'. destruct Ia' as [<-|Ia']; [right; now apply HP|].
      left. left. exists a'. auto. }
    assert (Drop2 : forall (P : N -> Prop), (forall v, aused a = Some v -> P v) -> forall v, tuse t v -> tuse (mkBt r (bt_todo t)) v \/ P v).
    { intros P HP v [(a' & Ia' & Va')|Y]; [|left; right; exact Y]. rewrite En in Ia'. destruct Ia' as [<-|Ia']; [right; now apply HP|].
      left. left. exists a'. auto. }
    assert (Repl1 : forall a', (forall x, acov a x -> acov a' x) -> forall x, tcov t x -> tcov (mkBt (a' :: r) (bt_todo t)) x).
    { intros a' HP x [(a2 & Ia' & Va')|Y]; [|right; exact Y]. rewrite En in Ia'. destruct Ia' as [<-|Ia'].
      - left. exists a'. split; [now left|auto]. - left. exists a2. split; [now right|auto]. }
    assert (Repl2 : forall a', aused a' = aused a -> forall v, tuse t v -> tuse (mkBt (a' :: r) (bt_todo t)) v).
    { intros a' HP v [(a2 & Ia' & Va')|Y]; [|right; exact Y]. rewrite En in Ia'. destruct Ia' as [<-|Ia'].
      - left. exists a'. split; [now left|congruence]. - left. exists a2. split; [now right|auto]. }
    assert (Full : forall k bits, N.land (bucket_value (bs_mem s) (bs_map s) k) bits = bits ->
       forall x, x / 64 = k /\ N.testbit bits (x mod 64) = true -> mbit (bs_mem s) (bs_map s) x = true).
    { intros k bits Q x [<- X2]. unfold mbit. rewrite <- Q in X2. rewrite N.land_spec in X2. now apply andb_prop in X2. }
    (* a store that only adds bits asked for by [o] *)
    assert (StoreCase : forall k v, k < bucket_count cap -> v < two64 ->
       (forall x, x / 64 = k -> N.testbit v (x mod 64) = true -> mbit (bs_mem s) (bs_map s) x = true \/ asks o x) ->
       (forall x, x / 64 = k -> mbit (bs_mem s) (bs_map s) x = true -> N.testbit v (x mod 64) = true) ->
       (forall x, acov a x -> x / 64 = k /\ N.testbit v (x mod 64) = true) -> aused a = None ->
       cbinv (mkBs (store_int (bs_mem s) (bucket_addr (bs_map s) k) 8 v) (bs_map s)) (upd ts i (mkBt r (bt_todo t)))).
    { intros k v Hk Hv H1 H2 H3 Ha.
      assert (MB : forall x, mbit (store_int (bs_mem s) (bucket_addr (bs_map s) k) 8 v) (bs_map s) x =
         if k =? x / 64 then N.testbit v (x mod 64) else mbit (bs_mem s) (bs_map s) x).
      { intros x. unfold mbit. rewrite bucket_store by assumption. now destruct (k =? x / 64). }
      assert (Eb : bs_map s = mkBm (bm_beg (bs_map s)) (bm_len (bs_map s)) (bm_cap (bs_map s)) (bs_used s)).
      { destruct s as [? []]; reflexivity. }
      rewrite Eb at 2. apply Build.
      - now apply all_bytes_store_int.
      - intros x _. cbn [bs_map]. rewrite <- Eb, MB. destruct (N.eqb_spec k (x / 64)) as [Ek|Ek]; [|auto].
        intros Q. destruct (H1 x (eq_sym Ek) Q) as [Y|Y]; [now left|right]. exists o. auto.
      - intros x Q. cbn [bs_map]. rewrite <- Eb, MB. destruct (N.eqb_spec k (x / 64)) as [Ek|Ek]; [|auto]. apply H2; auto.
      - intros x _. cbn [bs_map]. rewrite <- Eb. apply (Drop1 (fun x => mbit (store_int (bs_mem s) (bucket_addr (bs_map s) k) 8 v) (bs_map s) x = true)).
        intros y Vy. destruct (H3 y Vy) as [Y1 Y2]. rewrite MB. destruct (N.eqb_spec k (y / 64)); [exact Y2|congruence].
      - lia.
      - apply Drop2. intros v' Q. congruence.
      - now left.
      - exact Tr.
      - exact Td.
      - intros x Hx. unfold store_int. apply store_other. rewrite len_le_bytes. unfold bucket_addr. destruct Geo as (-> & _). lia. }
    destruct a as [k bits|k bits old|k|new|new old]; cbn [acov aused] in *.
    + (* load *)
      destruct (N.eqb_spec (N.land (bucket_value (bs_mem s) (bs_map s) k) bits) bits) as [Q|Q]; injection E as <- <-; (apply Build0; [ | | try exact Tr | exact Td]).
      * intros x _. apply (Drop1 (fun x => mbit (bs_mem s) (bs_map s) x = true)). exact (Full k bits Q).
      * apply (Drop2 (fun v => v <= bs_used s)). discriminate.
      * intros x _ V. left. revert V. apply Repl1. cbn [acov]. auto.
      * intros v V. left. revert V. apply Repl2. reflexivity.
      * cbn [bt_now]. intros a [<-|Ia]; [|now apply Tr]. exists o. split; [exact Io|]. split; [exact Ne|]. split; [exact Ka|exact Kb].
    + (* compare exchange *)
      destruct Kb as [Kb1 Kb2].
      destruct (N.eqb_spec (bucket_value (bs_mem s) (bs_map s) k) old) as [Qo|Qo].
      * destruct ch; cbn [andb negb] in E.
        -- destruct (N.eqb_spec (N.land (bucket_value (bs_mem s) (bs_map s) k) bits) bits) as [Q|Q]; injection E as <- <-; (apply Build0; [ | | try exact Tr | exact Td]).
           ++ intros x _. apply (Drop1 (fun x => mbit (bs_mem s) (bs_map s) x = true)). exact (Full k bits Q).
           ++ apply (Drop2 (fun v => v <= bs_used s)). discriminate.
           ++ intros x _ V. left. revert V. apply Repl1. cbn [acov]. auto.
           ++ intros v V. left. revert V. apply Repl2. reflexivity.
           ++ cbn [bt_now]. intros a [<-|Ia]; [|now apply Tr]. exists o. split; [exact Io|]. split; [exact Ne|]. split; [exact Ka|split; assumption].
        -- injection E as <- <-. apply StoreCase; auto.
           ++ apply lor_bound; [|exact Kb2]. rewrite <- Qo. now apply bucket_bound.
           ++ intros x X1 X2. rewrite N.lor_spec in X2. apply orb_prop in X2. destruct X2 as [X2|X2].
              ** left. unfold mbit. rewrite X1, Qo. exact X2.
              ** right. apply Ka. auto.
           ++ intros x X1 X2. unfold mbit in X2. rewrite X1, Qo in X2. rewrite N.lor_spec, X2. reflexivity.
           ++ intros x [X1 X2]. split; [exact X1|]. rewrite N.lor_spec, X2. apply orb_true_r.
      * cbn [andb] in E.
        destruct (N.eqb_spec (N.land (bucket_value (bs_mem s) (bs_map s) k) bits) bits) as [Q|Q]; injection E as <- <-; (apply Build0; [ | | try exact Tr | exact Td]).
        -- intros x _. apply (Drop1 (fun x => mbit (bs_mem s) (bs_map s) x = true)). exact (Full k bits Q).
        -- apply (Drop2 (fun v => v <= bs_used s)). discriminate.
        -- intros x _ V. left. revert V. apply Repl1. cbn [acov]. auto.
        -- intros v V. left. revert V. apply Repl2. reflexivity.
        -- cbn [bt_now]. intros a [<-|Ia]; [|now apply Tr]. exists o. split; [exact Io|]. split; [exact Ne|]. split; [exact Ka|split; assumption].
    + (* store of a full bucket *)
      injection E as <- <-.
      assert (AB : forall x, N.testbit all_bits_set (x mod 64) = true).
      { intros x. change all_bits_set with (N.ones 64). apply N.ones_spec_low. apply N.mod_lt. lia. }
      apply StoreCase; auto.
      * reflexivity.
    + (* load of the size *)
      destruct (N.ltb_spec new (bs_used s)) as [Q|Q]; injection E as <- <-; (apply Build0; [ | | try exact Tr | exact Td]).
      * intros x _. apply (Drop1 (fun x => mbit (bs_mem s) (bs_map s) x = true)). contradiction.
      * apply (Drop2 (fun v => v <= bs_used s)). intros v Qv. injection Qv as <-. lia.
      * intros x _ V. left. revert V. apply Repl1. contradiction.
      * intros v V. left. revert V. apply Repl2. reflexivity.
      * cbn [bt_now]. intros a [<-|Ia]; [|now apply Tr]. exists o. split; [exact Io|]. split; [exact Ne|]. split; [intros y []|split; [exact Kb|lia]].
    + (* compare exchange of the size *)
      assert (Other : (if new <? bs_used s then Some (mkBt r (bt_todo t), s)
                       else Some (mkBt (AUsedCas new (bs_used s) :: r) (bt_todo t), s)) = Some (t', s') -> cbinv s' (upd ts i t')).
      { clear E. intros E. destruct (N.ltb_spec new (bs_used s)) as [Q|Q]; injection E as <- <-; (apply Build0; [ | | try exact Tr | exact Td]).
        * intros x _. apply (Drop1 (fun x => mbit (bs_mem s) (bs_map s) x = true)). contradiction.
        * apply (Drop2 (fun v => v <= bs_used s)). intros v Qv. injection Qv as <-. lia.
        * intros x _ V. left. revert V. apply Repl1. contradiction.
        * intros v V. left. revert V. apply Repl2. reflexivity.
        * cbn [bt_now]. intros a [<-|Ia]; [|now apply Tr]. exists o. split; [exact Io|]. split; [exact Ne|]. split; [intros y []|split; [apply Kb|lia]]. }
      destruct (N.eqb_spec (bs_used s) old) as [Qo|Qo]; [|now apply Other].
      destruct ch; [now apply Other|]. cbn [andb negb] in E. injection E as <- <-.
      destruct Kb as [Kb1 Kb2]. apply (Build (mkBt r (bt_todo t)) (bs_mem s) new).
      * exact By.
      * intros x _ X. left. exact X.
      * intros x X. exact X.
      * intros x _. apply (Drop1 (fun x => mbit (bs_mem s) (bs_map s) x = true)). contradiction.
      * lia.
      * apply (Drop2 (fun v => v <= new)). intros v Qv. injection Qv as <-. lia.
      * right. exists o. auto.
      * exact Tr.
      * exact Td.
      * reflexivity.
Qed.

Lemma cbinv_start m progs : all_bytes m -> (forall a, b <= a -> a < b + l -> m a = 0) -> m0 = m -> ops = concat progs ->
  cbinv (mkBs m (mkBm b l cap 0)) (map (mkBt []) (map (map call_of) progs)).
Proof.
  intros By Z Em Eo.
  assert (GM : forall j t, get (map (mkBt []) (map (map call_of) progs)) j = Some t ->
     exists prog, get progs j = Some prog /\ t = mkBt [] (map call_of prog)).
  { intros j t Gt. rewrite get_map, get_map in Gt. destruct (get progs j) as [prog|] eqn:Ep; [|discriminate].
    cbn in Gt. injection Gt as <-. eauto. }
  assert (MG : forall o, In o ops -> exists j prog, get progs j = Some prog /\ In o prog).
  { intros o Io. rewrite Eo in Io. apply in_concat in Io. destruct Io as (prog & Ip & Io). apply In_nth_error in Ip. destruct Ip as (n & En).
    exists (N.of_nat n), prog. split; [|exact Io]. unfold get. now rewrite Nat2N.id. }
  assert (Start : forall o, In o ops -> exists j t, get (map (mkBt []) (map (map call_of) progs)) j = Some t /\ In (call_of o) (bt_todo t)).
  { intros o Io. destruct (MG o Io) as (j & prog & Gj & Ij). exists j, (mkBt [] (map call_of prog)). split.
    - rewrite get_map, get_map, Gj. reflexivity.
    - cbn [bt_todo]. now apply in_map. }
  constructor; cbn [bs_mem bs_map bm_beg bm_len bm_cap]; auto.
  - intros i Hi. unfold mbit, bucket_value, load_int, bucket_addr. cbn [bm_beg]. rewrite load_zero.
    + unfold P_Section.zeros. rewrite le_val_zeros, N.bits_0. discriminate.
    + intros x H1 H2. apply Z; lia.
  - intros i (o & Io & Vo). right. destruct (Start o Io) as (j & t & Gt & It). exists j, t. split; [exact Gt|]. right. eauto.
  - intros o Io Ne. right. destruct (Start o Io) as (j & t & Gt & It). exists j, t. split; [exact Gt|]. right. eauto.
  - intros j t Gt. destruct (GM j t Gt) as (prog & Gp & ->). split; [intros a []|]. cbn [bt_todo]. intros c Ic.
    apply in_map_iff in Ic. destruct Ic as (o & <- & Io). exists o. split; [|reflexivity]. rewrite Eo. apply in_concat. exists prog.
    split; [|exact Io]. unfold get in Gp. now apply nth_error_In in Gp.
  - intros a _. now rewrite Em.
Qed.

Definition bfinished (t : bthread) : Prop := bt_now t = [] /\ bt_todo t = [].

(** Once all threads have finished, memory and size are as after a sequential run. *)
Lemma cbinv_done s ts : cbinv s ts -> Forall bfinished ts -> binv b l cap m0 (bs_mem s) (bs_map s) ops.
Proof.
  intros [Geo By On Al Us Sm Th Fr] F.
  assert (No : forall P, (forall t, bfinished t -> ~ P t) -> ~ anyt P ts).
  { intros P H (j & t & Gj & Pt). apply (H t); [|exact Pt]. rewrite Forall_forall in F. apply F. unfold get in Gj. now apply nth_error_In in Gj. }
  assert (N1 : forall i, ~ anyt (fun t => tcov t i) ts).
  { intros i. apply No. intros t [T1 T2]. unfold tcov. rewrite T1, T2. intros [(? & [] & _)|(? & [] & _)]. }
  assert (N2 : forall v, ~ anyt (fun t => tuse t v) ts).
  { intros i. apply No. intros t [T1 T2]. unfold tuse. rewrite T1, T2. intros [(? & [] & _)|(? & [] & _)]. }
  assert (CB : cap <= 64 * bucket_count cap).
  { destruct (div64 (cap + 64 - 1)). unfold bucket_count, bits_per_bucket. lia. }
  assert (Ne : forall o i, asks o i -> nonempty o) by (intros [k|f n] i; cbn; [auto|lia]).
  assert (LB : forall o, In o ops -> nonempty o -> last_of o + 1 <= bucket_count cap + 1 /\ (~ range_in_last_bucket cap o -> last_of o + 1 <= bucket_count cap)).
  { intros o Io Eo. assert (Ko : bop_ok cap o) by (rewrite Forall_forall in Hops; now apply Hops).
    destruct o as [k|f n]; cbn [bop_ok last_of nonempty range_in_last_bucket] in *.
    - pose proof (bucket_count_ge cap k Ko). lia.
    - destruct Ko as [Ko|Ko]; [lia|]. destruct (div64 f). destruct (div64 (f + n)). unfold range_last.
      destruct (negb (f mod 64 =? 0) && (f + n <=? 64 * (f / 64 + 1))); lia. }
  constructor.
  - exact Geo.
  - exact By.
  - intros i Hi. split; [now apply On|]. intros A. destruct (Al i A) as [Y|Y]; [exact Y|]. now apply N1 in Y.
  - intros i (o & Io & Ao). destruct (Us o Io (Ne o i Ao)) as [Y|Y]; [|now apply N2 in Y].
    unfold bs_used in Y. enough (i / 64 <= last_of o) by lia. destruct o as [k|f n]; cbn [asks last_of] in *; [subst; lia|].
    apply range_last_covers; lia.
  - fold (bs_used s). destruct Sm as [->|(o & Io & Eo & ->)]; [lia|]. now apply LB.
  - intros H. fold (bs_used s). destruct Sm as [->|(o & Io & Eo & ->)]; [lia|]. apply (LB o Io Eo). now apply H.
  - exact Fr.
Qed.
End Inv.

(** A bit once set stays set. *)
Lemma bstep_mono b l cap m0 ops s ts i ch t t' s' x :
  cbinv b l cap m0 ops s ts -> get ts i = Some t -> bstep i ch t s = Some (t', s') ->
  mbit (bs_mem s) (bs_map s) x = true -> mbit (bs_mem s') (bs_map s') x = true.
Proof.
  intros [_ By _ _ _ _ Th _] G E Q. destruct (Th i t G) as [Tn _]. unfold bstep in E.
  assert (MB : forall k v, v < two64 -> (x / 64 = k -> N.testbit v (x mod 64) = true) ->
     mbit (store_int (bs_mem s) (bucket_addr (bs_map s) k) 8 v) (bs_map s) x = true).
  { intros k v Hv H. unfold mbit. rewrite bucket_store by assumption. destruct (N.eqb_spec k (x / 64)) as [Ek|Ek]; [now apply H|exact Q]. }
  destruct (bt_now t) as [|a r] eqn:En.
  - destruct (bt_todo t) as [|c rest]; [discriminate|].
    destruct (accesses (bm_cap (bs_map s)) (bm_len (bs_map s)) c); try discriminate. injection E as <- <-. exact Q.
  - destruct (Tn a (or_introl eq_refl)) as (o & _ & _ & _ & Kb).
    destruct a as [k bits|k bits old|k|new|new old]; cbn in Kb.
    + destruct (_ =? bits); injection E as <- <-; exact Q.
    + destruct ((bucket_value (bs_mem s) (bs_map s) k =? old) && negb ch) eqn:C.
      * injection E as <- <-. cbn [bs_mem bs_map]. apply andb_prop in C. destruct C as [C _]. apply N.eqb_eq in C. apply MB.
        -- apply lor_bound; [|apply Kb]. rewrite <- C. now apply bucket_bound.
        -- intros <-. rewrite N.lor_spec, <- C. unfold mbit in Q. rewrite Q. reflexivity.
      * destruct (_ =? bits); injection E as <- <-; exact Q.
    + injection E as <- <-. cbn [bs_mem bs_map]. apply MB; [reflexivity|]. intros _. change all_bits_set with (N.ones 64).
      apply N.ones_spec_low. apply N.mod_lt. lia.
    + destruct (new <? bs_used s); injection E as <- <-; exact Q.
    + destruct ((bs_used s =? old) && negb ch); [injection E as <- <-; exact Q|].
      destruct (new <? bs_used s); injection E as <- <-; exact Q.
Qed.

(** ** A thread that runs alone finishes *)
Section Solo.
Variable i : N.
Definition alone (n : nat) : list (N * bool) := repeat (i, false) n.
Definition geo (s : bshared) : N * N := (bm_cap (bs_map s), bm_len (bs_map s)).

(** From s, ts thread i alone reaches the local state t. *)
Definition reaches (s : bshared) (ts : list bthread) (t : bthread) : Prop :=
  exists n, let z := run bstep (s, ts) (alone n) in get (snd z) i = Some t /\ geo (fst z) = geo s.

Lemma reaches_step s ts t t1 s1 u : get ts i = Some t -> bstep i false t s = Some (t1, s1) -> geo s1 = geo s ->
  reaches s1 (upd ts i t1) u -> reaches s ts u.
Proof.
  intros G E Q (n & R1 & R2). exists (S n). unfold alone in *. cbn [repeat]. unfold run in *. cbn [fold_left].
  unfold move at 2 4. cbn [fst snd]. rewrite G, E. cbn [fst snd]. split; [exact R1|congruence].
Qed.
Lemma reaches_trans s ts t u : reaches s ts t ->
  (forall s1 ts1, get ts1 i = Some t -> geo s1 = geo s -> reaches s1 ts1 u) -> reaches s ts u.
Proof.
  intros (n & R1 & R2) K. destruct (run bstep (s, ts) (alone n)) as [s1 ts1] eqn:E. cbn [fst snd] in *.
  destruct (K s1 ts1 R1 R2) as (k & Q1 & Q2). exists (n + k)%nat. unfold alone in *. rewrite repeat_app, run_app, E. split; [exact Q1|congruence].
Qed.
Lemma reaches_refl s ts t : get ts i = Some t -> reaches s ts t.
Proof. intros G. exists 0%nat. cbn. auto. Qed.

Lemma solo_action a r todo s ts : get ts i = Some (mkBt (a :: r) todo) -> reaches s ts (mkBt r todo).
Proof.
  assert (Up : forall (ts : list bthread) t t', get ts i = Some t -> get (upd ts i t') i = Some t').
  { intros ts0 t t' G. apply get_upd_eq. exact (get_some _ _ _ G). }
  assert (Cas : forall k bits s ts, get ts i = Some (mkBt (ACas k bits (bucket_value (bs_mem s) (bs_map s) k) :: r) todo) -> reaches s ts (mkBt r todo)).
  { intros k bits s0 ts0 G. eapply reaches_step; [exact G|unfold bstep; cbn [bt_now bt_todo]; rewrite N.eqb_refl; cbn [andb negb]; reflexivity|reflexivity|].
    apply reaches_refl. eapply Up; eauto. }
  assert (Used : forall new s ts, get ts i = Some (mkBt (AUsedCas new (bs_used s) :: r) todo) -> reaches s ts (mkBt r todo)).
  { intros new s0 ts0 G. eapply reaches_step; [exact G|unfold bstep; cbn [bt_now bt_todo]; rewrite N.eqb_refl; cbn [andb negb]; reflexivity|reflexivity|].
    apply reaches_refl. eapply Up; eauto. }
  intros G. destruct a as [k bits|k bits old|k|new|new old].
  - destruct (N.land (bucket_value (bs_mem s) (bs_map s) k) bits =? bits) eqn:E;
      (eapply reaches_step; [exact G|unfold bstep; cbn [bt_now bt_todo]; rewrite E; reflexivity|reflexivity|]).
    + apply reaches_refl. eapply Up; eauto.
    + apply Cas with k bits. eapply Up; eauto.
  - destruct (bucket_value (bs_mem s) (bs_map s) k =? old) eqn:E0.
    + eapply reaches_step; [exact G|unfold bstep; cbn [bt_now bt_todo]; rewrite E0; cbn [andb negb]; reflexivity|reflexivity|]. apply reaches_refl. eapply Up; eauto.
    + destruct (N.land (bucket_value (bs_mem s) (bs_map s) k) bits =? bits) eqn:E;
        (eapply reaches_step; [exact G|unfold bstep; cbn [bt_now bt_todo]; rewrite E0; cbn [andb negb]; rewrite E; reflexivity|reflexivity|]).
      * apply reaches_refl. eapply Up; eauto.
      * apply Cas with k bits. eapply Up; eauto.
  - eapply reaches_step; [exact G|reflexivity|reflexivity|]. apply reaches_refl. eapply Up; eauto.
  - destruct (new <? bs_used s) eqn:E; (eapply reaches_step; [exact G|unfold bstep; cbn [bt_now bt_todo]; rewrite E; reflexivity|reflexivity|]).
    + apply reaches_refl. eapply Up; eauto.
    + apply Used with new. eapply Up; eauto.
  - destruct (bs_used s =? old) eqn:E0.
    + eapply reaches_step; [exact G|unfold bstep; cbn [bt_now bt_todo]; rewrite E0; cbn [andb negb]; reflexivity|reflexivity|]. apply reaches_refl. eapply Up; eauto.
    + destruct (new <? bs_used s) eqn:E;
        (eapply reaches_step; [exact G|unfold bstep; cbn [bt_now bt_todo]; rewrite E0; cbn [andb negb]; rewrite E; reflexivity|reflexivity|]).
      * apply reaches_refl. eapply Up; eauto.
      * apply Used with new. eapply Up; eauto.
Qed.

Lemma solo_now now todo : forall s ts, get ts i = Some (mkBt now todo) -> reaches s ts (mkBt [] todo).
Proof.
  induction now as [|a r IH]; intros s ts G; [now apply reaches_refl|].
  apply (reaches_trans _ _ _ _ (solo_action a r todo s ts G)). intros s1 ts1 G1 _. now apply IH.
Qed.

Lemma solo_all cap l todo : (forall c, In c todo -> exists a, accesses cap l c = Ok a) ->
  forall now s ts, geo s = (cap, l) -> get ts i = Some (mkBt now todo) -> reaches s ts (mkBt [] []).
Proof.
  induction todo as [|c todo IH]; intros A now s ts Q G.
  - now apply solo_now with now.
  - apply (reaches_trans _ _ _ _ (solo_now now _ s ts G)). intros s1 ts1 G1 Q1. destruct (A c (or_introl eq_refl)) as (a & E).
    assert (Q2 : geo s1 = (cap, l)) by congruence. unfold geo in Q2. injection Q2 as C1 C2.
    eapply reaches_step; [exact G1|unfold bstep; cbn [bt_now bt_todo]; rewrite C1, C2, E; reflexivity|reflexivity|].
    apply IH with a; [intros; apply A; now right|congruence|]. apply get_upd_eq. exact (get_some _ _ _ G1).
Qed.
End Solo.

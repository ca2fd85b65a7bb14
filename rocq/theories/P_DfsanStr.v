(** Proofs about the DFSan versions of string functions. *)
From Coq Require Import NArith ZArith List Bool Lia.
From Verif Require Import M_Base M_Memory M_Labels M_Dfsan M_DfsanStr S_Labels S_Provenance S_Dfsan S_Libc.
From Verif Require Import P_Base P_Memory P_Labels P_Dfsan T_Dfsan.
Import ListNotations.
Open Scope N_scope.

Definition bytes_ok (m : mem) : Prop := forall x, m x < 256.

Lemma schar_inj a b : a < 256 -> b < 256 -> schar a = schar b -> a = b.
Proof. unfold schar. intros A B. destruct (N.ltb_spec a 128), (N.ltb_spec b 128); lia. Qed.

Lemma schar_zero a : a < 256 -> (schar a = 0%Z <-> a = 0).
Proof. unfold schar. intros A. destruct (N.ltb_spec a 128); lia. Qed.

Lemma schar_eqb a b : a < 256 -> b < 256 -> (schar a =? schar b)%Z = (a =? b).
Proof.
  intros A B. destruct (N.eqb_spec a b) as [->|E]; [apply Z.eqb_refl|].
  apply Z.eqb_neq. intros F. apply E. now apply schar_inj.
Qed.

Lemma schar_eqb0 a : a < 256 -> (schar a =? 0)%Z = (a =? 0).
Proof. intros A. rewrite <- (schar_eqb a 0 A); [reflexivity|lia]. Qed.

Lemma lower_byte b : b < 256 -> lower b < 256.
Proof. unfold lower. intros. destruct (N.leb_spec 65 b), (N.leb_spec b 90); cbn [andb]; lia. Qed.

Lemma lower_zero b : lower b = 0 <-> b = 0.
Proof. unfold lower. destruct (N.leb_spec 65 b), (N.leb_spec b 90); cbn [andb]; lia. Qed.

Lemma tolower_schar b : b < 256 -> tolower (schar b) = schar (lower b).
Proof.
  unfold tolower, lower, schar. intros B.
  destruct (N.ltb_spec b 128).
  - destruct (Z.leb_spec 65 (Z.of_N b)), (N.leb_spec 65 b), (Z.leb_spec (Z.of_N b) 90), (N.leb_spec b 90); try lia; cbn [andb];
      try (destruct (N.ltb_spec (b + 32) 128); lia); destruct (N.ltb_spec b 128); lia.
  - destruct (Z.leb_spec 65 (Z.of_N b - 256)), (N.leb_spec 65 b), (N.leb_spec b 90); try lia; cbn [andb];
      destruct (N.ltb_spec b 128); lia.
Qed.

Lemma letter_byte c b : b < 256 -> letter c b < 256.
Proof. destruct c; cbn [letter]; auto using lower_byte. Qed.

Lemma letter_zero c b : letter c b = 0 <-> b = 0.
Proof. destruct c; cbn [letter]; try reflexivity; apply lower_zero. Qed.

(** Both string comparisons are one loop. *)
Fixpoint gloop (c : compare_fn) (fuel : nat) (m : mem) (s1 s2 n i : N) : Res (Z * N) :=
  match fuel with
  | O => Fuel
  | S f =>
      if negb (letter c (m (s1 + i)) =? letter c (m (s2 + i))) || (m (s1 + i) =? 0) || ((0 <? n) && (i =? n - 1))
      then Ok (Z.sub (schar (letter c (m (s1 + i)))) (schar (letter c (m (s2 + i)))), i + 1)
      else gloop c f m s1 s2 n (i + 1)
  end.

Lemma stop_test c a b q : negb (letter c a =? letter c b) || (a =? 0) || (b =? 0) || q
  = negb (letter c a =? letter c b) || (a =? 0) || q.
Proof.
  destruct (N.eqb_spec (letter c a) (letter c b)) as [E|E]; cbn [negb orb]; [|reflexivity].
  destruct (N.eqb_spec b 0) as [->|B].
  - assert (a = 0) as -> by (apply (letter_zero c); rewrite E; now apply letter_zero). cbn. reflexivity.
  - now rewrite orb_false_r.
Qed.

Lemma strncmp_gloop c fuel : forall m s1 s2 n i, bytes_ok m -> (forall b, letter c b = b) ->
  strncmp_loop fuel m s1 s2 n i = gloop c fuel m s1 s2 n i.
Proof.
  induction fuel as [|f IH]; intros m s1 s2 n i B Id; cbn [strncmp_loop gloop]; [reflexivity|].
  rewrite schar_eqb, !schar_eqb0 by apply B.
  rewrite <- (stop_test c). rewrite !Id. rewrite (IH _ _ _ _ _ B Id). reflexivity.
Qed.

Lemma strncasecmp_gloop c fuel : forall m s1 s2 n i, bytes_ok m -> (forall b, letter c b = lower b) ->
  strncasecmp_loop fuel m s1 s2 n i = gloop c fuel m s1 s2 n i.
Proof.
  induction fuel as [|f IH]; intros m s1 s2 n i B Id; cbn [strncasecmp_loop gloop]; [reflexivity|].
  rewrite !tolower_schar by apply B. rewrite schar_eqb by (apply lower_byte; apply B).
  rewrite <- (stop_test c). rewrite !Id. rewrite (IH _ _ _ _ _ B Id). reflexivity.
Qed.

Lemma looked_down c m s1 s2 i j : looked c m s1 s2 i -> j <= i -> looked c m s1 s2 j.
Proof.
  intros [P A] J. split.
  - destruct c; cbn [in_play] in *; try lia; try (intros q Q; apply P; lia); (split; [lia|intros q Q; apply P; lia]).
  - intros q Q. apply A. lia.
Qed.

(** The outcome of a comparison: [br] bytes were looked at, [r] is the result. *)
Definition outcome (c : compare_fn) (m : mem) (s1 s2 : N) (r : Z) (br : N) : Prop :=
  (forall i, looked c m s1 s2 i <-> i < br) /\
  ((r = 0%Z /\ same_letters c m s1 s2 br /\ (forall i, in_play c m s1 i -> i < br)) \/
   (exists i, br = i + 1 /\ looked c m s1 s2 i /\ letter c (m (s1 + i)) <> letter c (m (s2 + i)) /\
      r = Z.sub (schar (letter c (m (s1 + i)))) (schar (letter c (m (s2 + i)))))).

Lemma gloop_ok c k n : forall fuel m s1 s2 i, bytes_ok m ->
  (forall i, in_play c m s1 i <-> (n = 0 \/ i < n) /\ forall j, j < i -> m (s1 + j) <> 0) ->
  ends c m s1 s2 k -> looked c m s1 s2 i -> k <= i + N.of_nat fuel ->
  exists r br, gloop c fuel m s1 s2 n i = Ok (r, br) /\ outcome c m s1 s2 r br.
Proof.
  induction fuel as [|f IH]; intros m s1 s2 i B P E L K; cbn [gloop].
  { specialize (E i L). lia. }
  destruct (N.eqb_spec (letter c (m (s1 + i))) (letter c (m (s2 + i)))) as [Q|Q]; cbn [negb orb].
  - assert (A1 : same_letters c m s1 s2 (i + 1)).
    { intros j J. destruct (N.eq_dec j i) as [->|Ne]; [exact Q|]. apply L. lia. }
    assert (St : (m (s1 + i) =? 0) || ((0 <? n) && (i =? n - 1)) = true ->
      exists r br, Ok (Z.sub (schar (letter c (m (s1 + i)))) (schar (letter c (m (s2 + i)))), i + 1) = Ok (r, br) /\ outcome c m s1 s2 r br).
    { intros T. assert (Nx : forall j, in_play c m s1 j -> j < i + 1).
      { intros j J. apply P in J. destruct J as [J1 J2]. destruct (N.le_gt_cases (i + 1) j) as [G|G]; [|exact G]. exfalso.
        apply orb_true_iff in T as [T|T].
        - apply N.eqb_eq in T. apply (J2 i); [lia|exact T].
        - apply andb_true_iff in T as [T1 T2]. apply N.ltb_lt in T1. apply N.eqb_eq in T2. lia. }
      eexists _, _. split; [reflexivity|]. split.
      - intros j. split; [intros [J _]; now apply Nx|]. intros J. apply (looked_down c m s1 s2 i); [exact L|lia].
      - left. split; [rewrite Q; lia|]. split; [exact A1|exact Nx]. }
    destruct ((m (s1 + i) =? 0) || ((0 <? n) && (i =? n - 1))) eqn:T; [now apply St|]. clear St.
    apply orb_false_iff in T as [T1 T2]. apply N.eqb_neq in T1.
    apply IH; [exact B|exact P|exact E| |lia].
    split; [|exact A1]. apply P. destruct L as [L _]. apply P in L as [L1 L2]. split.
    + destruct L1 as [L1|L1]; [now left|]. right. apply andb_false_iff in T2 as [T2|T2]; [apply N.ltb_ge in T2|apply N.eqb_neq in T2]; lia.
    + intros j J. destruct (N.eq_dec j i) as [->|Ne]; [exact T1|]. apply L2. lia.
  - eexists _, _. split; [reflexivity|]. split.
    + intros j. split.
      * intros [_ J]. destruct (N.le_gt_cases (i + 1) j) as [G|G]; [|exact G]. exfalso. apply Q. apply J. lia.
      * intros J. apply (looked_down c m s1 s2 i); [exact L|lia].
    + right. exists i. auto.
Qed.

Lemma memcmp_loop_ok c k : forall n m s1 s2 i, bytes_ok m -> (forall b, letter c b = b) ->
  (forall i, in_play c m s1 i <-> i < k) -> same_letters c m s1 s2 i -> i + N.of_nat n = k ->
  exists r br, memcmp_loop m s1 s2 i n = (r, br) /\ outcome c m s1 s2 r br.
Proof.
  induction n as [|n IH]; intros m s1 s2 i B Id P A K; cbn [memcmp_loop].
  - eexists _, _. split; [reflexivity|]. split.
    + intros j. unfold looked. rewrite P. split; [lia|]. intros J. split; [lia|]. intros q Q. apply A. lia.
    + left. split; [reflexivity|]. split; [exact A|]. intros j J. apply P in J. lia.
  - rewrite schar_eqb by apply B. destruct (N.eqb_spec (m (s1 + i)) (m (s2 + i))) as [Q|Q]; cbn [negb].
    + apply IH; auto; [|lia]. intros j J. destruct (N.eq_dec j i) as [->|Ne]; [now rewrite !Id|]. apply A. lia.
    + eexists _, _. split; [reflexivity|].
      assert (L : looked c m s1 s2 i) by (split; [apply P; lia|exact A]).
      split.
      * intros j. split.
        -- intros [_ J]. destruct (N.le_gt_cases (i + 1) j) as [G|G]; [|exact G]. exfalso. apply Q. rewrite <- (Id (m (s1 + i))), <- (Id (m (s2 + i))). apply J. lia.
        -- intros J. apply (looked_down c m s1 s2 i); [exact L|lia].
      * right. exists i. rewrite !Id. auto.
Qed.

Definition compare_raw (fuel : nat) (c : compare_fn) (m : mem) (s1 s2 : N) : Res (Z * N) :=
  match c with
  | Memcmp n | Bcmp n => Ok (memcmp_loop m s1 s2 0 (N.to_nat n))
  | Strcmp => strncmp_loop fuel m s1 s2 0 0
  | Strncmp n => if n =? 0 then Ok (0%Z, 0) else strncmp_loop fuel m s1 s2 n 0
  | Strcasecmp => strncasecmp_loop fuel m s1 s2 0 0
  | Strncasecmp n => if n =? 0 then Ok (0%Z, 0) else strncasecmp_loop fuel m s1 s2 n 0
  end.

Lemma same_letters_0 c m s1 s2 : same_letters c m s1 s2 0.
Proof. intros i I. lia. Qed.

Lemma compare_raw_ok fuel c m s1 s2 k : bytes_ok m -> ends c m s1 s2 k -> (N.to_nat k <= fuel)%nat ->
  exists r br, compare_raw fuel c m s1 s2 = Ok (r, br) /\ outcome c m s1 s2 r br.
Proof.
  intros B E K. destruct c as [n|n| |n| |n]; cbn [compare_raw].
  - destruct (memcmp_loop_ok (Memcmp n) n (N.to_nat n) m s1 s2 0 B) as (r & br & -> & O); eauto; try reflexivity; try lia.
    apply same_letters_0.
  - destruct (memcmp_loop_ok (Bcmp n) n (N.to_nat n) m s1 s2 0 B) as (r & br & -> & O); eauto; try reflexivity; try lia.
    apply same_letters_0.
  - rewrite (strncmp_gloop Strcmp) by auto. apply (gloop_ok Strcmp k 0); auto; try lia.
    + intros i. cbn [in_play]. intuition.
    + split; [intros j J; lia|apply same_letters_0].
  - destruct (N.eqb_spec n 0) as [->|N0].
    + eexists _, _. split; [reflexivity|]. split.
      * intros i. unfold looked. cbn [in_play]. lia.
      * left. split; [reflexivity|]. split; [apply same_letters_0|]. intros i [I _]. lia.
    + rewrite (strncmp_gloop (Strncmp n)) by auto. apply (gloop_ok (Strncmp n) k n); auto; try lia.
      * intros i. cbn [in_play]. intuition.
      * split; [split; [lia|intros j J; lia]|apply same_letters_0].
  - rewrite (strncasecmp_gloop Strcasecmp) by auto. apply (gloop_ok Strcasecmp k 0); auto; try lia.
    + intros i. cbn [in_play]. intuition.
    + split; [intros j J; lia|apply same_letters_0].
  - destruct (N.eqb_spec n 0) as [->|N0].
    + eexists _, _. split; [reflexivity|]. split.
      * intros i. unfold looked. cbn [in_play]. lia.
      * left. split; [reflexivity|]. split; [apply same_letters_0|]. intros i [I _]. lia.
    + rewrite (strncasecmp_gloop (Strncasecmp n)) by auto. apply (gloop_ok (Strncasecmp n) k n); auto; try lia.
      * intros i. cbn [in_play]. intuition.
      * split; [split; [lia|intros j J; lia]|apply same_letters_0].
Qed.

Lemma compare_split strict init fuel c m t s1 s2 : dfsw_compare strict init fuel c m t s1 s2 =
  do (r, br) <- compare_raw fuel c m s1 s2;
  do (l, t1) <- memcmp_label strict init m t s1 s2 br;
  Ok (r, l, t1).
Proof. destruct c; reflexivity. Qed.

(** The sign of a difference of chars. *)
Lemma schar_diff a b : a < 256 -> b < 256 -> a <> b ->
  Z.sgn (schar a - schar b) = if Bool.eqb (a <? 128) (b <? 128) then (if a <? b then (-1)%Z else 1%Z) else (if a <? b then 1%Z else (-1)%Z).
Proof.
  intros A B Ne. unfold schar.
  destruct (N.ltb_spec a 128), (N.ltb_spec b 128), (N.ltb_spec a b); cbn [Bool.eqb]; lia.
Qed.

Lemma ordered_unique c m s1 s2 x y : ordered c m s1 s2 x -> ordered c m s1 s2 y -> x = y.
Proof.
  intros X Y. inversion X as [E|i P A L|i P A L]; inversion Y as [E'|i' P' A' L'|i' P' A' L']; subst; auto; exfalso.
  all: try (specialize (E _ P'); lia); try (specialize (E' _ P); lia).
  all: destruct (N.lt_trichotomy i i') as [G|[->|G]]; [specialize (A' _ G); lia|lia|specialize (A _ G); lia].
Qed.

(** Reading labels. *)
Lemma read_ok m t p n x t' : reachable t -> app_range p n -> (forall i, i < n -> known t (label_at m (p + i))) ->
  read_labels true m t p n = Ok (x, t') ->
  later t t' /\ len t' <= len t + n /\ known t' x /\ (forall b, derives (view t') x b <-> read_from m t p n b).
Proof.
  intros R A K H. unfold read_labels in H. destruct (N.eqb_spec n 0) as [->|N0].
  { injection H as <- <-. split; [now apply later_refl|]. split; [lia|]. split; [now left|].
    intros b. split; [intros D; exfalso; now apply (derives_zero t b)|]. intros (i & I & _). lia. }
  unfold union_load in H.
  assert (Sh : forall i, i < n -> load_int m (shadow_for p + 4 * i) 4 = label_at m (p + i)).
  { intros i I. unfold label_at. now rewrite (range_shadow p n i A I). }
  assert (Z0 := Sh 0 ltac:(lia)). rewrite N.mul_0_r, !N.add_0_r in Z0. rewrite Z0 in H.
  assert (Rs : forall i, i < N.of_nat (N.to_nat (n - 1)) ->
     load_int m (shadow_for p + 4 + 4 * i) 4 = label_at m (p + (i + 1))).
  { intros i I. replace (shadow_for p + 4 + 4 * i) with (shadow_for p + 4 * (i + 1)) by lia. apply Sh. lia. }
  assert (K0 : known t (label_at m p)) by (rewrite <- (N.add_0_r p); apply K; lia).
  destruct (union_load_loop_ok m (N.to_nat (n - 1)) t (label_at m p) (shadow_for p + 4) x t' R K0) as (La & Ln & Kx & _ & D).
  { intros i I. rewrite Rs by exact I. apply K. lia. }
  { exact H. }
  split; [exact La|]. split; [lia|]. split; [exact Kx|]. intros b. rewrite D. split.
  - intros [Dp|(i & I & Di)]; [exists 0; split; [lia|]; now rewrite N.add_0_r|].
    rewrite Rs in Di by exact I. exists (i + 1). split; [lia|exact Di].
  - intros (i & I & Di). destruct (N.eq_dec i 0) as [->|Ni]; [left; now rewrite N.add_0_r in Di|].
    right. exists (i - 1). split; [lia|]. rewrite Rs by lia. replace (i - 1 + 1) with i by lia. exact Di.
Qed.

Lemma union_ok t l r x t' : reachable t -> known t l -> known t r -> dfsan_union true t l r = Ok (x, t') ->
  later t t' /\ len t' <= len t + 1 /\ known t' x /\
  (forall b, derives (view t') x b <-> derives (view t) l b \/ derives (view t) r b).
Proof.
  intros R Kl Kr H. unfold dfsan_union in H. destruct (N.eqb_spec l r) as [->|Ne].
  - injection H as <- <-. split; [now apply later_refl|]. split; [lia|]. split; [exact Kr|]. intros; tauto.
  - destruct (dfsan_union_ok t l r x t' R Kl Kr H) as (La & Ln & Kx & _ & D). auto.
Qed.

Lemma read_later m t t' p n b : reachable t -> later t t' -> (forall i, i < n -> known t (label_at m (p + i))) ->
  (read_from m t' p n b <-> read_from m t p n b).
Proof.
  intros R La K. split; intros (i & I & D); exists i; (split; [exact I|]);
    apply (later_derives t t' (label_at m (p + i)) b R La (K i I)); exact D.
Qed.

Lemma read_more m t t' p n x t'' : reachable t -> later t t' -> app_range p n ->
  (forall i, i < n -> known t (label_at m (p + i))) -> read_labels true m t' p n = Ok (x, t'') ->
  later t t'' /\ later t' t'' /\ known t'' x /\ (forall b, derives (view t'') x b <-> read_from m t p n b).
Proof.
  intros R La A K H. destruct (read_ok m t' p n x t'' (proj1 La) A) as (La2 & _ & Kx & D).
  { intros i I. apply (later_known t t'); auto. }
  { exact H. }
  split; [now apply (later_trans t t')|]. split; [exact La2|]. split; [exact Kx|].
  intros b. rewrite D. now apply read_later.
Qed.

(** strchr. *)
Definition plain (m : mem) (s : N) (c : Z) (e : N) : Prop :=
  forall j, j < e -> m (s + j) <> 0 /\ schar (m (s + j)) <> c.

Lemma strchr_loop_ok fuel : forall m s k c i, bytes_ok m -> c_string m s k -> plain m s c i -> i <= k -> k < i + N.of_nat fuel ->
  exists mp e, strchr_loop fuel m s c i = Ok (mp, e + 1) /\ e <= k /\ plain m s c e /\
    ((schar (m (s + e)) = c /\ mp = s + e) \/ (e = k /\ schar (m (s + e)) <> c /\ mp = 0)).
Proof.
  induction fuel as [|f IH]; intros m s k c i B C P I K; [lia|]. cbn [strchr_loop].
  destruct (Z.eqb_spec (schar (m (s + i))) c) as [E|E]; cbn [orb].
  - exists (s + i), i. split; [|auto]. destruct (Z.eqb_spec (schar (m (s + i))) 0) as [E0|E0]; cbn [andb]; [|reflexivity].
    rewrite <- E, E0. reflexivity.
  - destruct (Z.eqb_spec (schar (m (s + i))) 0) as [E0|E0]; cbn [andb].
    + exists 0, i. assert (Z0 : m (s + i) = 0) by (apply schar_zero; [apply B|exact E0]).
      assert (i = k) as ->.
      { destruct (N.eq_dec i k) as [|Ne]; [assumption|]. exfalso. apply (proj2 C i); [lia|exact Z0]. }
      split; [|auto 10]. destruct (Z.eqb_spec c 0) as [->|Nc]; [congruence|]. reflexivity.
    + apply IH; auto.
      * intros j J. destruct (N.eq_dec j i) as [->|Ne].
        -- split; [|exact E]. intros Z0. apply E0. now rewrite Z0.
        -- apply P. lia.
      * destruct (N.eq_dec i k) as [->|Ne]; [|lia]. exfalso. apply E0. now rewrite (proj1 C).
      * lia.
Qed.

Lemma as_char_schar c b : b < 256 -> (-128 <= c <= 127)%Z -> (schar b = c <-> b = as_char c).
Proof.
  intros B R. unfold schar, as_char. destruct (Z.leb_spec 0 c) as [P|P].
  - rewrite Z.mod_small by lia. destruct (N.ltb_spec b 128); lia.
  - replace (c mod 256)%Z with (c + 256)%Z by (rewrite <- (Z.mod_add c 1 256), Z.mod_small; lia).
    destruct (N.ltb_spec b 128); lia.
Qed.

Lemma schar_range b : b < 256 -> (-128 <= schar b <= 127)%Z.
Proof. intros B. unfold schar. destruct (N.ltb_spec b 128); lia. Qed.

Lemma c_string_first m s k j : c_string m s k -> m (s + j) = 0 -> k <= j.
Proof. intros [_ C] Z. destruct (N.lt_ge_cases j k) as [G|G]; [|exact G]. exfalso. now apply (C j). Qed.

Lemma c_string_fun m s k k' : c_string m s k -> c_string m s k' -> k = k'.
Proof.
  intros C C'. assert (A := c_string_first m s k k' C (proj1 C')). assert (A' := c_string_first m s k' k C' (proj1 C)). lia.
Qed.

Lemma union_total t l r : reachable t -> known t l -> known t r -> len t + 1 <= 2 ^ 31 ->
  exists x t', dfsan_union true t l r = Ok (x, t').
Proof.
  intros R Kl Kr C. unfold dfsan_union. destruct (l =? r); [eauto|].
  destruct (dfsan_union_total t l r R Kl Kr) as [(x & t' & E)|(_ & E)]; [eauto|].
  change label_capacity with (2 ^ 31) in E. lia.
Qed.

(** The union of labels of bytes read and the labels of pointers. *)
Lemma mix_ok t u x l1 l2 y v z w : reachable t -> later t u -> known u x -> known t l1 -> known t l2 ->
  dfsan_union true u l1 l2 = Ok (y, v) -> dfsan_union true v x y = Ok (z, w) ->
  later t w /\ known w z /\
  (forall b, derives (view w) z b <-> derives (view u) x b \/ derives (view t) l1 b \/ derives (view t) l2 b).
Proof.
  intros R La Kx K1 K2 H1 H2.
  destruct (union_ok u l1 l2 y v (proj1 La) (later_known _ _ _ La K1) (later_known _ _ _ La K2) H1) as (Lb & _ & Ky & Dy).
  destruct (union_ok v x y z w (proj1 Lb) (later_known _ _ _ Lb Kx) Ky H2) as (Lc & _ & Kz & Dz).
  split; [eapply later_trans; [exact La|]; eapply later_trans; eassumption|]. split; [exact Kz|].
  intros b. rewrite Dz, Dy, (later_derives u v x b (proj1 La) Lb Kx), (later_derives t u l1 b R La K1), (later_derives t u l2 b R La K2). reflexivity.
Qed.

(** The same with the bytes of a second buffer. *)
Lemma mix2_ok t u1 u2 x1 x2 l1 l2 y v z w o p : reachable t -> later t u1 -> later u1 u2 -> known u1 x1 -> known u2 x2 ->
  known t l1 -> known t l2 ->
  dfsan_union true u2 l1 l2 = Ok (y, v) -> dfsan_union true v x2 y = Ok (z, w) -> dfsan_union true w x1 z = Ok (o, p) ->
  later t p /\ known p o /\
  (forall b, derives (view p) o b <-> derives (view u1) x1 b \/ derives (view u2) x2 b \/ derives (view t) l1 b \/ derives (view t) l2 b).
Proof.
  intros R La Lb Kx1 Kx2 K1 K2 H1 H2 H3.
  assert (L2 := later_trans _ _ _ La Lb).
  destruct (mix_ok t u2 x2 l1 l2 y v z w R L2 Kx2 K1 K2 H1 H2) as (Lw & Kz & Dz).
  assert (Lu : later u2 w).
  { destruct (union_ok u2 l1 l2 y v (proj1 L2) (later_known _ _ _ L2 K1) (later_known _ _ _ L2 K2) H1) as (Lc & _ & Ky & _).
    destruct (union_ok v x2 y z w (proj1 Lc) (later_known _ _ _ Lc Kx2) Ky H2) as (Ld & _). eapply later_trans; eassumption. }
  assert (L1 := later_trans _ _ _ Lb Lu).
  destruct (union_ok w x1 z o p (proj1 Lw) (later_known _ _ _ L1 Kx1) Kz H3) as (Le & _ & Ko & Do).
  split; [eapply later_trans; eassumption|]. split; [exact Ko|].
  intros b. rewrite Do, Dz, (later_derives u1 w x1 b (proj1 La) L1 Kx1). tauto.
Qed.

(** Setting labels of application memory is always defined. *)
Lemma set_any_app m l p n : app_range p n -> p + n < 0x800000000000 -> set_label_any m l p n = Ok (set_label m l p n).
Proof.
  intros [A1 A2] T. unfold set_label_any.
  destruct (N.eq_dec n 0) as [->|N0].
  { unfold touches at 1. cbn [N.ltb N.compare andb].
    assert (Ab : app_byte p) by (split; lia).
    assert (Sh := shadow_bounds p Ab). assert (Se := shadow_end p 0 Ab ltac:(lia)).
    destruct (_ || _) eqn:Q; [reflexivity|]. apply orb_false_iff in Q as [_ Q]. apply N.leb_gt in Q.
    rewrite Se in Q. assert (U := round_up_spec (shadow_for p)). assert (D := round_down_spec (shadow_for p + 4 * 0)). unfold PAGE in *. lia. }
  assert (Ab : app_byte p) by (split; lia).
  assert (Sh := shadow_bounds p Ab). assert (Se := shadow_end p n Ab T).
  assert (T1 : forall q, touches (shadow_for p) q = false).
  { intros q. unfold touches. replace (shadow_for p <? SHADOW_ADDR) with false; [apply andb_false_r|]. symmetry. apply N.ltb_ge. lia. }
  rewrite !T1. cbn [orb].
  destruct (_ || _) eqn:Q; [reflexivity|]. apply orb_false_iff in Q as [_ Q]. apply N.leb_gt in Q.
  replace (touches (round_down (shadow_for (add64 p n))) _) with false; [reflexivity|].
  symmetry. unfold touches. apply andb_false_iff. right. apply N.ltb_ge.
  assert (U := round_up_spec (shadow_for p)). unfold PAGE in *. lia.
Qed.

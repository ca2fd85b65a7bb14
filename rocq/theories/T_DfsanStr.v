(** C68, C69 and further theorems of C38 and C53: the DFSan versions of the libc functions
    that compare, search, convert and copy strings. *)
From Coq Require Import NArith ZArith List Bool Lia.
From Verif Require Import M_Base M_Memory M_Labels M_Dfsan M_DfsanStr S_Labels S_Provenance S_Dfsan S_Libc.
From Verif Require Import P_Base P_Memory P_Labels P_Demo P_Dfsan T_Dfsan P_DfsanStr.
Import ListNotations.
Open Scope N_scope.

(** C68: comparisons say "equal" exactly if libc does ... *)
Theorem C68_equal : forall strict fuel c m t s1 s2 k r l t',
  (forall x, m x < 256) -> ends c m s1 s2 k -> (N.to_nat k <= fuel)%nat ->
  dfsw_compare strict true fuel c m t s1 s2 = Ok (r, l, t') ->
  (r = 0%Z <-> ordered c m s1 s2 0).
Proof.
  intros strict fuel c m t s1 s2 k r l t' B E K H. rewrite compare_split in H.
  destruct (compare_raw_ok fuel c m s1 s2 k B E K) as (r' & br & E1 & L & O). rewrite E1 in H. cbn [bind] in H.
  apply bind_ok in H. destruct H as ([l1 t1] & _ & H). injection H as -> -> ->.
  destruct O as [(-> & A & P)|(i & -> & Li & Ne & ->)].
  - split; [|reflexivity]. intros _. constructor. intros i I. apply A. now apply P.
  - split.
    + intros Z. exfalso. apply Ne. apply schar_inj; [now apply letter_byte, B|now apply letter_byte, B|lia].
    + intros Q. exfalso. inversion Q as [Eq| |]; subst. apply Ne. apply Eq. apply Li.
Qed.

(** ... and order their arguments as libc does when the bytes that decide are both ASCII
    or both not ... *)
Theorem C68_order_partial : forall strict fuel c m t s1 s2 k r l t',
  (forall x, m x < 256) -> ends c m s1 s2 k -> (N.to_nat k <= fuel)%nat ->
  (forall i, looked c m s1 s2 i -> (m (s1 + i) < 128 <-> m (s2 + i) < 128)) ->
  dfsw_compare strict true fuel c m t s1 s2 = Ok (r, l, t') ->
  ordered c m s1 s2 (Z.sgn r).
Proof.
  intros strict fuel c m t s1 s2 k r l t' B E K A H. rewrite compare_split in H.
  destruct (compare_raw_ok fuel c m s1 s2 k B E K) as (r' & br & E1 & L & O). rewrite E1 in H. cbn [bind] in H.
  apply bind_ok in H. destruct H as ([l1 t1] & _ & H). injection H as -> -> ->.
  destruct O as [(-> & Ag & P)|(i & -> & Li & Ne & ->)].
  - constructor. intros i I. apply Ag. now apply P.
  - rewrite schar_diff by (try exact Ne; now apply letter_byte, B).
    assert (Hf : forall b, b < 256 -> (letter c b <? 128) = (b <? 128)).
    { intros b Hb. destruct c; cbn [letter]; try reflexivity; unfold lower;
        destruct (N.leb_spec 65 b), (N.leb_spec b 90); cbn [andb]; try reflexivity;
        destruct (N.ltb_spec (b + 32) 128), (N.ltb_spec b 128); lia. }
    rewrite !Hf by apply B. specialize (A i Li).
    assert (Eb : (m (s1 + i) <? 128) = (m (s2 + i) <? 128)).
    { destruct (N.ltb_spec (m (s1 + i)) 128), (N.ltb_spec (m (s2 + i)) 128); tauto || lia. }
    rewrite Eb, eqb_reflx. destruct (N.ltb_spec (letter c (m (s1 + i))) (letter c (m (s2 + i)))) as [G|G].
    + apply (o_less _ _ _ _ i); [apply Li|apply Li|exact G].
    + apply (o_greater _ _ _ _ i); [apply Li|apply Li|lia].
Qed.

(** ... but the other way round whenever exactly one of them is ASCII: the bytes are
    compared as signed chars.  The full statement is C68_order_partial without its fourth
    hypothesis. *)
Theorem C68_order_refuted : forall strict fuel c m t s1 s2 k i r l t',
  (forall x, m x < 256) -> ends c m s1 s2 k -> (N.to_nat k <= fuel)%nat ->
  looked c m s1 s2 i -> m (s1 + i) < 128 -> 128 <= m (s2 + i) ->
  dfsw_compare strict true fuel c m t s1 s2 = Ok (r, l, t') ->
  ordered c m s1 s2 (-1) /\ Z.sgn r = 1%Z.
Proof.
  intros strict fuel c m t s1 s2 k i r l t' B E K Li A1 A2 H.
  assert (Lo : forall b, b < 128 -> letter c b < 128).
  { intros b Hb. destruct c; cbn [letter]; try assumption; unfold lower;
      destruct (N.leb_spec 65 b), (N.leb_spec b 90); cbn [andb]; lia. }
  assert (Hi : forall b, 128 <= b -> letter c b = b).
  { intros b Hb. destruct c; cbn [letter]; try reflexivity; unfold lower;
      destruct (N.leb_spec 65 b), (N.leb_spec b 90); cbn [andb]; lia. }
  assert (Lt : letter c (m (s1 + i)) < letter c (m (s2 + i))) by (specialize (Lo _ A1); rewrite (Hi _ A2); lia).
  split; [apply (o_less _ _ _ _ i); [apply Li|apply Li|exact Lt]|].
  rewrite compare_split in H.
  destruct (compare_raw_ok fuel c m s1 s2 k B E K) as (r' & br & E1 & L & O). rewrite E1 in H. cbn [bind] in H.
  apply bind_ok in H. destruct H as ([l1 t1] & _ & H). injection H as -> -> ->.
  destruct O as [(-> & Ag & P)|(j & -> & Lj & Ne & ->)].
  - exfalso. assert (Q := Ag i (P i (proj1 Li))). lia.
  - assert (j = i) as ->.
    { destruct (N.lt_trichotomy j i) as [G|[G|G]]; [|exact G|].
      - exfalso. apply Ne. apply Li. exact G.
      - exfalso. apply L in Li. assert (Q := proj2 Lj i G). lia. }
    rewrite schar_diff by (try exact Ne; now apply letter_byte, B).
    assert (G1 : (letter c (m (s1 + i)) <? 128) = true) by (apply N.ltb_lt; auto).
    assert (G2 : (letter c (m (s2 + i)) <? 128) = false) by (apply N.ltb_ge; rewrite (Hi _ A2); lia).
    assert (G3 : (letter c (m (s1 + i)) <? letter c (m (s2 + i))) = true) by (apply N.ltb_lt; exact Lt).
    rewrite G1, G2, G3. reflexivity.
Qed.

(** With the default flags a comparison always returns, and its result is unlabelled. *)
Theorem C68_returns : forall fuel c m t s1 s2 k,
  (forall x, m x < 256) -> ends c m s1 s2 k -> (N.to_nat k <= fuel)%nat ->
  exists r, dfsw_compare true true fuel c m t s1 s2 = Ok (r, 0, t).
Proof.
  intros fuel c m t s1 s2 k B E K. rewrite compare_split.
  destruct (compare_raw_ok fuel c m s1 s2 k B E K) as (r & br & -> & _). cbn [bind memcmp_label]. eauto.
Qed.

(** The name "é" (195 169) sorts before "z" (122) only in the instrumented program. *)
Definition two_strings : mem := store (store mem_zero 0x7fff00000000 [195; 169; 0]) 0x7fff00001000 [122; 0].
Lemma two_strings_bytes : forall x, two_strings x < 256.
Proof.
  intros x. unfold two_strings, store, mem_zero. change (len [195; 169; 0]) with 3. change (len [122; 0]) with 2.
  destruct ((0x7fff00001000 <=? x) && (x <? 0x7fff00001000 + 2)).
  - destruct (N.to_nat (x - 0x7fff00001000)) as [|[|[|?]]]; vm_compute; reflexivity.
  - destruct ((0x7fff00000000 <=? x) && (x <? 0x7fff00000000 + 3)); [|vm_compute; reflexivity].
    destruct (N.to_nat (x - 0x7fff00000000)) as [|[|[|[|?]]]]; vm_compute; reflexivity.
Qed.
Example C68_case :
  (forall c, c = Memcmp 2 \/ c = Strcmp \/ c = Strncasecmp 5 ->
     ends c two_strings 0x7fff00001000 0x7fff00000000 2 /\
     looked c two_strings 0x7fff00001000 0x7fff00000000 0) /\
  two_strings 0x7fff00001000 < 128 /\ 128 <= two_strings 0x7fff00000000 /\
  map (fun c => match dfsw_compare true true 9 c two_strings demo 0x7fff00001000 0x7fff00000000 with Ok (r, _, _) => r | _ => 0%Z end)
    [Memcmp 2; Strcmp; Strncasecmp 5; Memcmp 0] = [183; 183; 183; 0]%Z.
Proof.
  split; [|split; [vm_compute; reflexivity|split; [vm_compute; congruence|vm_compute; reflexivity]]].
  assert (N0 : forall c, letter c (two_strings 0x7fff00001000) <> letter c (two_strings 0x7fff00000000)).
  { intros []; vm_compute; discriminate. }
  intros c Q. split.
  - intros i [P A]. destruct (N.lt_ge_cases i 2) as [G|G]; [exact G|]. exfalso. apply (N0 c).
    specialize (A 0 ltac:(lia)). now rewrite !N.add_0_r in A.
  - split; [|intros i I; lia]. destruct Q as [->|[->| ->]]; cbn [in_play]; try lia; try (split; [lia|]); intros j J; lia.
Qed.

(** C68: strchr finds what libc finds for a character in the range of char ... *)
Theorem C68_strchr_partial : forall strict fuel m t s k c s_label c_label v l t',
  (forall x, m x < 256) -> c_string m s k -> (N.to_nat k < fuel)%nat -> (-128 <= c <= 127)%Z ->
  dfsw_strchr strict true fuel m t s c s_label c_label = Ok (v, l, t') -> strchr_result m s c v.
Proof.
  intros strict fuel m t s k c sl cl v l t' B C F R H. unfold dfsw_strchr in H.
  destruct (strchr_loop_ok fuel m s k c 0 B C) as (mp & e & E & Ek & P & O); [intros j J; lia|lia|lia|].
  rewrite E in H. cbn [bind] in H.
  assert (v = mp) as -> by (destruct strict; [now injection H|]; repeat (apply bind_ok in H; destruct H as ([? ?] & _ & H)); now injection H).
  destruct O as [[Q ->]|(-> & Q & ->)].
  - constructor; [now apply as_char_schar|]. intros j J. destruct (P j J) as [P1 P2]. split; [exact P1|].
    intros W. apply P2. now apply as_char_schar.
  - apply (not_found _ _ _ k C). intros j J W. apply as_char_schar in W; [|apply B|exact R].
    destruct (N.eq_dec j k) as [->|Ne]; [now apply Q|]. apply (P j); [lia|exact W].
Qed.

(** ... and nothing for any other, also if libc finds it. *)
Theorem C68_strchr_refuted : forall strict fuel m t s k c s_label c_label v l t' i,
  (forall x, m x < 256) -> c_string m s k -> (N.to_nat k < fuel)%nat -> (c < -128 \/ 127 < c)%Z ->
  i <= k -> m (s + i) = as_char c -> (forall j, j < i -> m (s + j) <> as_char c) ->
  dfsw_strchr strict true fuel m t s c s_label c_label = Ok (v, l, t') ->
  strchr_result m s c (s + i) /\ v = 0.
Proof.
  intros strict fuel m t s k c sl cl v l t' i B C F R I Mi Mj H. split.
  - constructor; [exact Mi|]. intros j J. split; [|now apply Mj]. apply (proj2 C). lia.
  - unfold dfsw_strchr in H.
    destruct (strchr_loop_ok fuel m s k c 0 B C) as (mp & e & E & Ek & P & O); [intros j J; lia|lia|lia|].
    rewrite E in H. cbn [bind] in H.
    assert (v = mp) as -> by (destruct strict; [now injection H|]; repeat (apply bind_ok in H; destruct H as ([? ?] & _ & H)); now injection H).
    destruct O as [[Q _]|(_ & _ & ->)]; [|reflexivity].
    assert (W := schar_range (m (s + e)) (B _)). lia.
Qed.

(** Looking for 'é' in Latin 1 (233), or for 256 (which converts to the terminator). *)
Definition latin : mem := store mem_zero 0x7fff00000000 [99; 97; 102; 233; 0].
Example C68_strchr_case :
  c_string latin 0x7fff00000000 4 /\ latin (0x7fff00000000 + 3) = as_char 233 /\ latin (0x7fff00000000 + 4) = as_char 256 /\
  map (fun c => match dfsw_strchr true true 9 latin demo 0x7fff00000000 c 0 0 with Ok (v, _, _) => v | _ => 7 end) [233; 256; -23; 97; 0]%Z
    = [0; 0; 0x7fff00000003; 0x7fff00000001; 0x7fff00000004].
Proof.
  split; [|vm_compute; repeat split]. split; [vm_compute; reflexivity|]. intros i I.
  assert (Q : i = 0 \/ i = 1 \/ i = 2 \/ i = 3) by lia. destruct Q as [->|[->|[->| ->]]]; vm_compute; discriminate.
Qed.

(** C69: without the strict flag, the label of a comparison stands for exactly the bytes
    libc has to look at to compute the result. *)
Theorem C69_compare : forall fuel c m t s1 s2 k r l t',
  (forall x, m x < 256) -> ends c m s1 s2 k -> (N.to_nat k <= fuel)%nat ->
  reachable t -> app_range s1 k -> app_range s2 k ->
  (forall i, i < k -> known t (label_at m (s1 + i)) /\ known t (label_at m (s2 + i))) ->
  dfsw_compare false true fuel c m t s1 s2 = Ok (r, l, t') ->
  known t' l /\
  (forall b, derives (view t') l b <->
     exists i, looked c m s1 s2 i /\ (derives (view t) (label_at m (s1 + i)) b \/ derives (view t) (label_at m (s2 + i)) b)) /\
  (forall y b, in_use t y -> (derives (view t') y b <-> derives (view t) y b)).
Proof.
  intros fuel c m t s1 s2 k r l t' B E F R A1 A2 Kn H. rewrite compare_split in H.
  destruct (compare_raw_ok fuel c m s1 s2 k B E F) as (r' & br & E1 & L & _). rewrite E1 in H. cbn [bind] in H.
  apply bind_ok in H. destruct H as ([l1 t1] & H & H'). injection H' as -> -> ->.
  unfold memcmp_label in H. apply bind_ok in H. destruct H as ([x1 u1] & H1 & H).
  apply bind_ok in H. destruct H as ([x2 u2] & H2 & H3).
  assert (Br : br <= k).
  { destruct (N.eq_dec br 0) as [->|Nz]; [lia|]. assert (Q : looked c m s1 s2 (br - 1)) by (apply L; lia). apply E in Q. lia. }
  assert (A1' : app_range s1 br) by (unfold app_range in *; lia). assert (A2' : app_range s2 br) by (unfold app_range in *; lia).
  destruct (read_more m t t s1 br x1 u1 R (later_refl t R) A1') as (La & _ & K1 & D1); [intros i I; apply Kn; lia|exact H1|].
  destruct (read_more m t u1 s2 br x2 u2 R La A2') as (La2 & Lb & K2 & D2); [intros i I; apply Kn; lia|exact H2|].
  destruct (union_ok u2 x1 x2 l t' (proj1 La2) (later_known _ _ _ Lb K1) K2 H3) as (La3 & _ & K3 & D3).
  assert (Lt := later_trans _ _ _ La2 La3). split; [exact K3|]. split; [|apply Lt].
  intros b. rewrite D3, D2, (later_derives u1 u2 x1 b (proj1 La) Lb K1), D1. split.
  - intros [(i & I & D)|(i & I & D)]; exists i; (split; [now apply L|]); auto.
  - intros (i & I & [D|D]); [left|right]; exists i; (split; [now apply L|exact D]).
Qed.

(** With the flag, which is the default, comparisons and lengths are unlabelled, however
    tainted the bytes, and a found position has the label of the pointer passed in. *)
Theorem C69_strict : forall fuel m t,
  (forall c s1 s2 r l t', dfsw_compare true true fuel c m t s1 s2 = Ok (r, l, t') -> l = 0 /\ t' = t) /\
  (forall s v l t', dfsw_strlen true true fuel m t s = Ok (v, l, t') -> l = 0 /\ t' = t) /\
  (forall s c sl cl v l t', dfsw_strchr true true fuel m t s c sl cl = Ok (v, l, t') -> l = sl /\ t' = t) /\
  (forall s n sl cl ret, dfsw_memchr true true m t s n sl cl ret = Ok (ret, if ret =? 0 then 0 else sl, t)) /\
  (forall s sl cl ret, dfsw_strrchr true true fuel m t s sl cl ret = Ok (ret, if ret =? 0 then 0 else sl, t)) /\
  (forall s a sl al ret, dfsw_strpbrk true true fuel m t s a sl al ret = Ok (ret, if ret =? 0 then 0 else sl, t)) /\
  (forall h n hl nl ret, dfsw_strstr true true fuel m t h n hl nl ret = Ok (ret, if ret =? 0 then 0 else hl, t)).
Proof.
  intros fuel m t. split; [|split; [|split; [|repeat split]]].
  - intros c s1 s2 r l t' H. rewrite compare_split in H. apply bind_ok in H. destruct H as ([x br] & _ & H).
    cbn [memcmp_label bind] in H. now injection H.
  - intros s v l t' H. unfold dfsw_strlen in H. apply bind_ok in H. destruct H as (k & _ & H). now injection H.
  - intros s c sl cl v l t' H. unfold dfsw_strchr in H. apply bind_ok in H. destruct H as ([x br] & _ & H). now injection H.
Qed.

(** Without the flag: the length of a string, ... *)
Theorem C69_strlen : forall fuel m t s k v l t',
  c_string m s k -> (N.to_nat k < fuel)%nat -> reachable t -> app_range s (k + 1) ->
  (forall i, i <= k -> known t (label_at m (s + i))) ->
  dfsw_strlen false true fuel m t s = Ok (v, l, t') ->
  v = k /\ known t' l /\ (forall b, derives (view t') l b <-> read_from m t s (k + 1) b) /\
  (forall y b, in_use t y -> (derives (view t') y b <-> derives (view t) y b)).
Proof.
  intros fuel m t s k v l t' C F R A Kn H. unfold dfsw_strlen in H. rewrite (strlen_ok _ _ _ _ C F) in H. cbn [bind] in H.
  apply bind_ok in H. destruct H as ([x u] & H1 & H). injection H as <- -> ->.
  destruct (read_ok m t s (k + 1) l t' R A) as (La & _ & Kx & D); [intros i I; apply Kn; lia|exact H1|].
  split; [reflexivity|]. split; [exact Kx|]. split; [exact D|apply La].
Qed.

(** ... the position of a character, ... *)
Theorem C69_strchr : forall fuel m t s k c s_label c_label v l t',
  (forall x, m x < 256) -> c_string m s k -> (N.to_nat k < fuel)%nat -> reachable t -> app_range s (k + 1) ->
  (forall i, i <= k -> known t (label_at m (s + i))) -> known t s_label -> known t c_label -> (-128 <= c <= 127)%Z ->
  dfsw_strchr false true fuel m t s c s_label c_label = Ok (v, l, t') ->
  known t' l /\
  (forall b, derives (view t') l b <->
     (exists i, i <= k /\ (forall j, j < i -> m (s + j) <> as_char c) /\ derives (view t) (label_at m (s + i)) b) \/
     derives (view t) s_label b \/ derives (view t) c_label b) /\
  (forall y b, in_use t y -> (derives (view t') y b <-> derives (view t) y b)).
Proof.
  intros fuel m t s k c sl cl v l t' B C F R A Kn Ks Kc Rc H. unfold dfsw_strchr in H.
  destruct (strchr_loop_ok fuel m s k c 0 B C) as (mp & e & E & Ek & P & O); [intros j J; lia|lia|lia|].
  rewrite E in H. cbn [bind] in H.
  apply bind_ok in H. destruct H as ([x1 u1] & H1 & H). apply bind_ok in H. destruct H as ([x2 u2] & H2 & H).
  apply bind_ok in H. destruct H as ([x3 u3] & H3 & H). injection H as -> -> ->.
  destruct (read_ok m t s (e + 1) x1 u1 R) as (La & _ & K1 & D1); [unfold app_range in *; lia|intros i I; apply Kn; lia|exact H1|].
  destruct (mix_ok t u1 x1 sl cl x2 u2 l t' R La K1 Ks Kc H2 H3) as (Lt & Kl & D).
  split; [exact Kl|]. split; [|apply Lt]. intros b. rewrite D, D1.
  assert (Q : read_from m t s (e + 1) b <-> exists i, i <= k /\ (forall j, j < i -> m (s + j) <> as_char c) /\ derives (view t) (label_at m (s + i)) b).
  { split; intros (i & I & G).
    - exists i. split; [lia|]. split; [|exact G]. intros j J W. apply as_char_schar in W; [|apply B|exact Rc].
      apply (P j); [lia|exact W].
    - destruct G as [G1 G2]. exists i. split; [|exact G2]. destruct (N.lt_ge_cases i (e + 1)) as [|Gi]; [assumption|]. exfalso.
      destruct O as [[Q _]|(-> & _)]; [|lia]. apply as_char_schar in Q; [|apply B|exact Rc]. apply (G1 e); [lia|exact Q]. }
  rewrite Q. reflexivity.
Qed.

(** ... of a byte, where [ret] is what libc returned, ... *)
Theorem C69_memchr : forall m t s n c s_label c_label ret v l t',
  reachable t -> 0 < s -> app_range s n -> memchr_result m s c n ret ->
  (forall i, i < n -> known t (label_at m (s + i))) -> known t s_label -> known t c_label ->
  dfsw_memchr false true m t s n s_label c_label ret = Ok (v, l, t') ->
  v = ret /\ known t' l /\
  (forall b, derives (view t') l b <->
     (exists i, i < n /\ (forall j, j < i -> m (s + j) <> as_char c) /\ derives (view t) (label_at m (s + i)) b) \/
     derives (view t) s_label b \/ derives (view t) c_label b) /\
  (forall y b, in_use t y -> (derives (view t') y b <-> derives (view t) y b)).
Proof.
  intros m t s n c sl cl ret v l t' R S0 A M Kn Ks Kc H. unfold dfsw_memchr in H.
  set (k := if ret =? 0 then n else ret - s + 1) in H.
  assert (Kk : k <= n /\ forall i, i < k <-> i < n /\ forall j, j < i -> m (s + j) <> as_char c).
  { subst k. inversion M as [i I Mi Mj E|Mj E]; subst ret.
    - destruct (N.eqb_spec (s + i) 0); [lia|]. replace (s + i - s + 1) with (i + 1) by lia. split; [lia|].
      intros q. split.
      + intros Q. split; [lia|]. intros j J. apply Mj. lia.
      + intros [Q W]. destruct (N.lt_ge_cases q (i + 1)); [assumption|]. exfalso. apply (W i); [lia|exact Mi].
    - cbn [N.eqb]. split; [lia|]. intros q. split; [|tauto]. intros Q. split; [exact Q|]. intros j J. apply Mj. lia. }
  destruct Kk as [Kn' Kk].
  apply bind_ok in H. destruct H as ([x1 u1] & H1 & H). apply bind_ok in H. destruct H as ([x2 u2] & H2 & H).
  apply bind_ok in H. destruct H as ([x3 u3] & H3 & H). injection H as <- -> ->.
  destruct (read_ok m t s k x1 u1 R) as (La & _ & K1 & D1); [unfold app_range in *; lia|intros i I; apply Kn; lia|exact H1|].
  destruct (mix_ok t u1 x1 sl cl x2 u2 l t' R La K1 Ks Kc H2 H3) as (Lt & Kl & D).
  split; [reflexivity|]. split; [exact Kl|]. split; [|apply Lt]. intros b. rewrite D, D1.
  assert (Q : read_from m t s k b <-> exists i, i < n /\ (forall j, j < i -> m (s + j) <> as_char c) /\ derives (view t) (label_at m (s + i)) b).
  { split.
    - intros (i & I & G). apply Kk in I. exists i. tauto.
    - intros (i & I1 & I2 & G). exists i. split; [now apply Kk|exact G]. }
  rewrite Q. reflexivity.
Qed.

(** ... of the last occurrence of a character, ... *)
Theorem C69_strrchr : forall fuel m t s k s_label c_label ret v l t',
  c_string m s k -> (N.to_nat k < fuel)%nat -> reachable t -> app_range s (k + 1) ->
  (forall i, i <= k -> known t (label_at m (s + i))) -> known t s_label -> known t c_label ->
  dfsw_strrchr false true fuel m t s s_label c_label ret = Ok (v, l, t') ->
  v = ret /\ known t' l /\
  (forall b, derives (view t') l b <-> read_from m t s (k + 1) b \/ derives (view t) s_label b \/ derives (view t) c_label b) /\
  (forall y b, in_use t y -> (derives (view t') y b <-> derives (view t) y b)).
Proof.
  intros fuel m t s k sl cl ret v l t' C F R A Kn Ks Kc H. unfold dfsw_strrchr in H.
  rewrite (strlen_ok _ _ _ _ C F) in H. cbn [bind] in H.
  apply bind_ok in H. destruct H as ([x1 u1] & H1 & H). apply bind_ok in H. destruct H as ([x2 u2] & H2 & H).
  apply bind_ok in H. destruct H as ([x3 u3] & H3 & H). injection H as <- -> ->.
  destruct (read_ok m t s (k + 1) x1 u1 R A) as (La & _ & K1 & D1); [intros i I; apply Kn; lia|exact H1|].
  destruct (mix_ok t u1 x1 sl cl x2 u2 l t' R La K1 Ks Kc H2 H3) as (Lt & Kl & D).
  split; [reflexivity|]. split; [exact Kl|]. split; [|apply Lt]. intros b. rewrite D, D1. reflexivity.
Qed.

(** ... of the first of several characters ... *)
Theorem C69_strpbrk : forall fuel m t s k accept ka s_label accept_label ret v l t',
  c_string m s k -> c_string m accept ka -> (N.to_nat k < fuel)%nat -> (N.to_nat ka < fuel)%nat -> 0 < s ->
  reachable t -> app_range s (k + 1) -> app_range accept (ka + 1) -> strpbrk_result m s accept ret ->
  (forall i, i <= k -> known t (label_at m (s + i))) -> (forall i, i <= ka -> known t (label_at m (accept + i))) ->
  known t s_label -> known t accept_label ->
  dfsw_strpbrk false true fuel m t s accept s_label accept_label ret = Ok (v, l, t') ->
  v = ret /\ known t' l /\
  (forall b, derives (view t') l b <->
     (exists i, i <= k /\ (forall j, j < i -> ~ occurs m accept (m (s + j))) /\ derives (view t) (label_at m (s + i)) b) \/
     read_from m t accept (ka + 1) b \/ derives (view t) s_label b \/ derives (view t) accept_label b) /\
  (forall y b, in_use t y -> (derives (view t') y b <-> derives (view t) y b)).
Proof.
  intros fuel m t s k ac ka sl al ret v l t' C Ca F Fa S0 R A Aa M Kn Kna Ks Kc H. unfold dfsw_strpbrk in H.
  assert (Q : exists e, (if ret =? 0 then strlen fuel m s else Ok (ret - s)) = Ok e /\ e <= k /\
     forall i, i < e + 1 <-> i <= k /\ forall j, j < i -> ~ occurs m ac (m (s + j))).
  { inversion M as [i Oc Oj E|k' C' Oj E]; subst ret.
    - destruct (N.eqb_spec (s + i) 0); [lia|]. exists i. split; [f_equal; lia|].
      assert (Ik : i < k).
      { destruct (N.lt_ge_cases i k) as [G|G]; [exact G|]. exfalso. destruct (N.eq_dec i k) as [->|Ne].
        - destruct Oc as (j & ka' & Ca' & J & W). rewrite (proj1 C) in W. now apply (proj2 Ca' j J).
        - destruct (Oj k ltac:(lia)) as [Z _]. apply Z. apply C. }
      split; [lia|]. intros q. split.
      + intros Iq. split; [lia|]. intros j J. apply Oj. lia.
      + intros [_ W]. destruct (N.lt_ge_cases q (i + 1)); [assumption|]. exfalso. apply (W i); [lia|exact Oc].
    - cbn [N.eqb]. rewrite (c_string_fun _ _ _ _ C' C) in *. exists k. split; [now apply strlen_ok|]. split; [lia|].
      intros q. split; [|lia]. intros Iq. split; [lia|]. intros j J. apply Oj. lia. }
  destruct Q as (e & Ee & Ek & Q). rewrite Ee in H. cbn [bind] in H.
  apply bind_ok in H. destruct H as ([x1 u1] & H1 & H). rewrite (strlen_ok _ _ _ _ Ca Fa) in H. cbn [bind] in H.
  apply bind_ok in H. destruct H as ([x2 u2] & H2 & H). apply bind_ok in H. destruct H as ([x3 u3] & H3 & H).
  apply bind_ok in H. destruct H as ([x4 u4] & H4 & H). apply bind_ok in H. destruct H as ([x5 u5] & H5 & H). injection H as <- -> ->.
  destruct (read_ok m t s (e + 1) x1 u1 R) as (La & _ & K1 & D1); [unfold app_range in *; lia|intros i I; apply Kn; lia|exact H1|].
  destruct (read_more m t u1 ac (ka + 1) x2 u2 R La Aa) as (La2 & Lb & K2 & D2); [intros i I; apply Kna; lia|exact H2|].
  destruct (mix2_ok t u1 u2 x1 x2 sl al x3 u3 x4 u4 l t' R La Lb K1 K2 Ks Kc H3 H4 H5) as (Lt & Kl & D).
  split; [reflexivity|]. split; [exact Kl|]. split; [|apply Lt]. intros b. rewrite D, D1, D2.
  assert (Q' : read_from m t s (e + 1) b <-> exists i, i <= k /\ (forall j, j < i -> ~ occurs m ac (m (s + j))) /\ derives (view t) (label_at m (s + i)) b).
  { split.
    - intros (i & I & G). apply Q in I. exists i. tauto.
    - intros (i & I1 & I2 & G). exists i. split; [now apply Q|exact G]. }
  rewrite Q'. reflexivity.
Qed.

(** ... and of a string. *)
Theorem C69_strstr : forall fuel m t h hk needle nk h_label n_label ret v l t',
  c_string m h hk -> c_string m needle nk -> (N.to_nat hk < fuel)%nat -> (N.to_nat nk < fuel)%nat -> 0 < h ->
  reachable t -> app_range h (hk + 1) -> app_range needle (nk + 1) -> strstr_result m h hk needle nk ret ->
  (forall i, i <= hk -> known t (label_at m (h + i))) -> (forall i, i <= nk -> known t (label_at m (needle + i))) ->
  known t h_label -> known t n_label ->
  dfsw_strstr false true fuel m t h needle h_label n_label ret = Ok (v, l, t') ->
  v = ret /\ known t' l /\
  (forall b, derives (view t') l b <->
     read_from m t h (if ret =? 0 then hk + 1 else ret - h + nk) b \/ read_from m t needle (nk + 1) b \/
     derives (view t) h_label b \/ derives (view t) n_label b) /\
  (forall y b, in_use t y -> (derives (view t') y b <-> derives (view t) y b)).
Proof.
  intros fuel m t h hk nd nk hl nl ret v l t' C Cn F Fn S0 R A An M Kn Knn Ks Kc H. unfold dfsw_strstr in H.
  rewrite (strlen_ok _ _ _ _ Cn Fn) in H. cbn [bind] in H.
  set (e := if ret =? 0 then hk + 1 else ret - h + nk).
  assert (Q : (if ret =? 0 then do kh <- strlen fuel m h; Ok (kh + 1) else Ok (ret + nk - h)) = Ok e /\ e <= hk + 1).
  { unfold e. inversion M as [i I Si Sj E|Sj E]; subst ret.
    - destruct (N.eqb_spec (h + i) 0); [lia|]. split; [f_equal; lia|lia].
    - cbn [N.eqb]. rewrite (strlen_ok _ _ _ _ C F). cbn [bind]. split; [reflexivity|lia]. }
  destruct Q as [Ee Ek]. rewrite Ee in H. cbn [bind] in H.
  apply bind_ok in H. destruct H as ([x1 u1] & H1 & H).
  apply bind_ok in H. destruct H as ([x2 u2] & H2 & H). apply bind_ok in H. destruct H as ([x3 u3] & H3 & H).
  apply bind_ok in H. destruct H as ([x4 u4] & H4 & H). apply bind_ok in H. destruct H as ([x5 u5] & H5 & H). injection H as <- -> ->.
  destruct (read_ok m t h e x1 u1 R) as (La & _ & K1 & D1); [unfold app_range in *; lia|intros i I; apply Kn; lia|exact H1|].
  destruct (read_more m t u1 nd (nk + 1) x2 u2 R La An) as (La2 & Lb & K2 & D2); [intros i I; apply Knn; lia|exact H2|].
  destruct (mix2_ok t u1 u2 x1 x2 hl nl x3 u3 x4 u4 l t' R La Lb K1 K2 Ks Kc H3 H4 H5) as (Lt & Kl & D).
  split; [reflexivity|]. split; [exact Kl|]. split; [|apply Lt]. intros b. rewrite D, D1, D2. reflexivity.
Qed.

(** C69: the label of a converted number stands for the characters libc used, the
    terminator if it stopped there, and the base; it is 0 if no number was found. *)
Theorem C69_strto : forall m t nptr endptr k end_ base_label m' l t',
  reachable t -> c_string m nptr k -> app_range nptr (k + 1) -> nptr <= end_ -> end_ <= nptr + k ->
  endptr = 0 \/ app_range endptr 8 /\ apart endptr 8 nptr (k + 1) ->
  (forall i, i <= k -> known t (label_at m (nptr + i))) -> known t base_label ->
  dfsw_strto true m t nptr endptr end_ base_label = Ok (m', l, t') ->
  known t' l /\ (end_ = nptr -> l = 0) /\
  (nptr < end_ -> forall b, derives (view t') l b <->
     read_from m t nptr (if end_ =? nptr + k then k + 1 else end_ - nptr) b \/ derives (view t) base_label b) /\
  (endptr <> 0 -> end_ < 2 ^ 64 -> load_int m' endptr 8 = end_) /\
  (forall q, app_byte q -> label_at m' q = label_at m q) /\
  (forall q, endptr = 0 \/ ~ within endptr 8 q -> m' q = m q) /\
  (forall y b, in_use t y -> (derives (view t') y b <-> derives (view t) y b)).
Proof.
  intros m t np ep k en bl m' l t' R C A E1 E2 Ap Kn Kb H. unfold dfsw_strto in H.
  apply bind_ok in H. destruct H as ([x u] & H & H'). injection H' as <- -> ->.
  assert (Ot : forall q, ep = 0 \/ ~ within ep 8 q -> store_endptr m ep en q = m q).
  { intros q Q. unfold store_endptr. destruct (N.eqb_spec ep 0) as [|N0]; [reflexivity|]. destruct Q as [Q|Q]; [contradiction|].
    unfold store_int. apply store_other. rewrite len_le_bytes. unfold within in Q. cbn. lia. }
  assert (Lb : forall q, app_byte q -> label_at (store_endptr m ep en) q = label_at m q).
  { intros q Q. apply labels_app; [|exact Q]. intros x X. apply Ot. destruct Ap as [->|[[G1 G2] _]]; [now left|]. right. unfold within. lia. }
  assert (St : forall i, i <= k -> store_endptr m ep en (np + i) = m (np + i)).
  { intros i I. apply Ot. destruct Ap as [->|[_ G]]; [now left|]. right. unfold within, apart in *. lia. }
  assert (Ld : ep <> 0 -> en < 2 ^ 64 -> load_int (store_endptr m ep en) ep 8 = en).
  { intros N0 B. unfold store_endptr. destruct (N.eqb_spec ep 0); [contradiction|]. apply load_int_store. exact B. }
  unfold strto_label in H. destruct (N.ltb_spec np en) as [G|G].
  - apply bind_ok in H. destruct H as ([x1 u1] & H1 & H2).
    assert (Ez : (store_endptr m ep en en =? 0) = (en =? np + k)).
    { replace en with (np + (en - np)) at 2 3 by lia. rewrite St by lia.
      destruct (N.eqb_spec (np + (en - np)) (np + k)) as [Q|Q].
      - rewrite Q. rewrite (proj1 C). reflexivity.
      - apply N.eqb_neq. apply (proj2 C). lia. }
    rewrite Ez in H1. set (cnt := en - np + _) in H1.
    assert (Ec : cnt = if en =? np + k then k + 1 else en - np).
    { unfold cnt. destruct (N.eqb_spec en (np + k)); lia. }
    assert (Ck : cnt <= k + 1) by (rewrite Ec; destruct (N.eqb_spec en (np + k)); lia).
    assert (Kn1 : forall i, i < cnt -> known t (label_at (store_endptr m ep en) (np + i))).
    { intros i I. rewrite Lb by (destruct A; split; lia). apply Kn. lia. }
    destruct (read_ok (store_endptr m ep en) t np cnt x1 u1 R) as (La & _ & K1 & D1); [unfold app_range in *; lia|exact Kn1|exact H1|].
    destruct (union_ok u1 bl x1 l t' (proj1 La) (later_known _ _ _ La Kb) K1 H2) as (Lc & _ & Kl & D).
    assert (Lt := later_trans _ _ _ La Lc).
    split; [exact Kl|]. split; [lia|]. split; [|split; [exact Ld|split; [exact Lb|split; [exact Ot|apply Lt]]]].
    intros _ b. rewrite D, D1, (later_derives t u1 bl b R La Kb), <- Ec.
    assert (Q : read_from (store_endptr m ep en) t np cnt b <-> read_from m t np cnt b).
    { split; intros (i & I & Dd); exists i; (split; [exact I|]); [rewrite <- Lb by (destruct A; split; lia)|rewrite Lb by (destruct A; split; lia)]; exact Dd. }
    rewrite Q. tauto.
  - injection H as <- <-. split; [now left|]. split; [reflexivity|]. split; [lia|].
    split; [exact Ld|]. split; [exact Lb|]. split; [exact Ot|]. reflexivity.
Qed.

(** The pointer stored in *endptr therefore keeps the label its cell had, whatever it was. *)
Theorem C69_endptr_refuted : exists m t nptr endptr end_ m' l t',
  reachable t /\ (forall i, i < 6 -> label_at m (nptr + i) = 0) /\
  dfsw_strto true m t nptr endptr end_ 0 = Ok (m', l, t') /\ load_int m' endptr 8 = end_ /\
  label_at m' endptr <> 0.
Proof.
  set (m := set_label (store mem_zero 0x7fff00000000 [52; 50; 0]) 4 0x7fff00001000 8).
  exists m, demo, 0x7fff00000000, 0x7fff00001000, 0x7fff00000002, (store_endptr m 0x7fff00001000 0x7fff00000002), 0, demo.
  split; [exact demo_reachable|]. split; [|split].
  - intros i I. assert (Q : i = 0 \/ i = 1 \/ i = 2 \/ i = 3 \/ i = 4 \/ i = 5) by lia.
    destruct Q as [->|[->|[->|[->|[->| ->]]]]]; vm_compute; reflexivity.
  - unfold dfsw_strto.
    assert (E : strto_label true (store_endptr m 0x7fff00001000 0x7fff00000002) demo 0x7fff00000000 0x7fff00000002 0 = Ok (0, demo))
      by (vm_compute; reflexivity).
    rewrite E. reflexivity.
  - split; [vm_compute; reflexivity|]. intros Z. vm_compute in Z. discriminate.
Qed.

(** "42x" with label 4 on the first and label 9 on the last character; comparison of "ab"
    and "ac". *)
Definition number : mem := set_label (set_label (store mem_zero 0x7fff00000000 [52; 50; 120; 0]) 4 0x7fff00000000 1) 9 0x7fff00000002 1.
Example C69_case :
  reachable demo /\ c_string number 0x7fff00000000 3 /\ app_range 0x7fff00000000 4 /\
  (forall i, i <= 3 -> known demo (label_at number (0x7fff00000000 + i))) /\
  memchr_result number 0x7fff00000000 50 4 0x7fff00000001 /\
  match dfsw_strto true number demo 0x7fff00000000 0 0x7fff00000002 0, dfsw_strlen false true 9 number demo 0x7fff00000000,
        dfsw_memchr false true number demo 0x7fff00000000 4 0 0 0x7fff00000001 with
  | Ok (_, l1, _), Ok (3, l2, t2), Ok (_, l3, _) => (l1 =? 4) && (l3 =? 4) && negb (l2 =? 0) && (len demo <? len t2)
  | _, _, _ => false
  end = true.
Proof.
  split; [exact demo_reachable|].
  assert (Q : forall i, i <= 3 -> i = 0 \/ i = 1 \/ i = 2 \/ i = 3) by lia.
  split; [split; [vm_compute; reflexivity|]; intros i I; destruct (Q i ltac:(lia)) as [->|[->|[->| ->]]]; try lia; vm_compute; discriminate|].
  split; [split; vm_compute; congruence|].
  split; [intros i I; destruct (Q i I) as [->|[->|[->| ->]]]; vm_compute; intuition congruence|].
  split; [|vm_compute; reflexivity].
  apply (mc_found number 0x7fff00000000 50 4 1); [lia|vm_compute; reflexivity|].
  intros j J. replace j with 0 by lia. vm_compute. discriminate.
Qed.

(** C53: strcpy copies the characters, the terminator and the labels of all of them. *)
Theorem C53_strcpy : forall fuel m dest src k dst_label,
  c_string m src k -> (N.to_nat k < fuel)%nat -> app_range dest (k + 1) -> app_range src (k + 1) -> apart dest (k + 1) src (k + 1) ->
  exists m', dfsw_strcpy fuel m dest src dst_label = Ok (m', dest, dst_label) /\ c_string m' dest k /\
  (forall i, i <= k -> label_at m' (dest + i) = label_at m (src + i) /\ m' (dest + i) = m (src + i)) /\
  (forall q, app_byte q -> ~ within dest (k + 1) q -> label_at m' q = label_at m q /\ m' q = m q).
Proof.
  intros fuel m d s k dl C F D S Ap. unfold dfsw_strcpy. rewrite (strlen_ok _ _ _ _ C F). cbn [bind].
  set (m1 := copy_loop m d s (N.to_nat (k + 1))).
  assert (Or : d <= s \/ s + (k + 1) <= d) by (unfold apart in Ap; lia).
  assert (B1 : forall x, m1 x = move m d s (k + 1) x) by (intros x; apply copy_move; exact Or).
  assert (L1 : forall q, app_byte q -> label_at m1 q = label_at m q).
  { intros q Q. apply labels_app; [|exact Q]. intros x X. rewrite B1. now apply move_app_low. }
  assert (S1 : forall x, s <= x -> x <= s + k -> m1 x = m x).
  { intros x X1 X2. rewrite B1. rewrite move_spec.
    destruct (N.leb_spec d x), (N.ltb_spec x (d + (k + 1))); cbn [andb]; try reflexivity. unfold apart in Ap. lia. }
  rewrite (strlen_ok fuel m1 s k (c_string_ext m m1 s k S1 C) F). cbn [bind].
  eexists. split; [reflexivity|].
  set (m2 := copy_loop m1 _ _ _).
  assert (L2 : forall q, app_byte q -> label_at m2 q = if (d <=? q) && (q <? d + (k + 1)) then label_at m1 (s + (q - d)) else label_at m1 q).
  { intros q Q. rewrite <- (move_labels m1 d s (k + 1) q D S Q). apply label_eq. apply (copy_labels m1 d s (k + 1) D S Ap). }
  assert (B2 : same_app m1 m2).
  { intros x X. unfold m2. rewrite (copy_labels m1 d s (k + 1) D S Ap). now apply move_shadow_app. }
  assert (G : forall i, i <= k -> label_at m2 (d + i) = label_at m (s + i) /\ m2 (d + i) = m (s + i)).
  { intros i I. assert (Qd : app_byte (d + i)) by (destruct D; split; lia). assert (Qs : app_byte (s + i)) by (destruct S; split; lia).
    rewrite (L2 _ Qd), (B2 _ Qd), B1, move_spec.
    destruct (N.leb_spec d (d + i)), (N.ltb_spec (d + i) (d + (k + 1))); cbn [andb]; try lia.
    replace (d + i - d) with i by lia. rewrite (L1 _ Qs). auto. }
  split; [|split; [exact G|]].
  - split; [rewrite (proj2 (G k ltac:(lia))); apply C|]. intros i I. rewrite (proj2 (G i ltac:(lia))). now apply C.
  - intros q Q W. unfold within in W. rewrite (L2 _ Q), (B2 _ Q), B1, move_spec, (L1 _ Q).
    destruct (N.leb_spec d q), (N.ltb_spec q (d + (k + 1))); cbn [andb]; try lia; auto.
Qed.

(** C38: calloc returns unlabelled memory; [m1] is any memory libc may leave behind. *)
Theorem C38_calloc : forall m m1 nmemb size p,
  (forall x, ~ app_byte x -> m1 x = m x) -> nmemb * size < 2 ^ 64 ->
  0x700000008000 <= p -> p + nmemb * size < 0x800000000000 ->
  exists m', dfsw_calloc m1 nmemb size p = Ok (m', p, 0) /\ same_app m1 m' /\
  (forall i, i < nmemb * size -> label_at m' (p + i) = 0) /\
  (forall q, app_byte q -> ~ within p (nmemb * size) q -> label_at m' q = label_at m q).
Proof.
  intros m m1 nm sz p M1 O Lo Hi. unfold dfsw_calloc.
  assert (Em : mul64 nm sz = nm * sz) by (apply N.mod_small; exact O). rewrite Em.
  assert (A : app_range p (nm * sz)) by (split; lia).
  rewrite (set_any_app _ _ _ _ A Hi). cbn [bind]. eexists. split; [reflexivity|].
  assert (Z : 0 < two32) by (vm_compute; reflexivity).
  split; [apply set_label_app; auto|]. split.
  - intros i I. apply (set_label_in m1 0 p (nm * sz) i Z A); auto.
  - intros q Q W. rewrite (set_label_out m1 0 p (nm * sz) q Z A) by auto.
    apply labels_app; [|exact Q]. intros x X. apply M1. unfold app_byte. lia.
Qed.

(** A failing calloc (null) of up to 8 KiB makes the wrapper write to address 0 ... *)
Theorem C38_calloc_failure_refuted : forall m1 nmemb size,
  1 <= nmemb * size -> nmemb * size <= 8192 -> dfsw_calloc m1 nmemb size 0 = UB.
Proof.
  intros m1 nm sz N1 N2. unfold dfsw_calloc.
  assert (Em : mul64 nm sz = nm * sz) by (apply N.mod_small; unfold two64; lia). rewrite Em.
  assert (Es : shadow_for (add64 0 (nm * sz)) = 4 * (nm * sz)).
  { unfold add64. rewrite N.add_0_l, N.mod_small by (unfold two64; lia).
    rewrite shadow_for_low by lia. rewrite N.mod_small; [reflexivity|]. change (2 ^ 44) with 0x100000000000. lia. }
  unfold set_label_any. rewrite Es. change (shadow_for 0) with 0. change (round_up 0) with 0.
  assert (D := round_down_spec (4 * (nm * sz))).
  replace (round_down (4 * (nm * sz)) <=? 0 + 8 * PAGE) with true by (symmetry; apply N.leb_le; unfold PAGE in *; lia).
  rewrite orb_true_r. unfold touches. replace (0 <? nm * sz) with true by (symmetry; apply N.ltb_lt; lia). reflexivity.
Qed.

(** ... and one of a large request clears the labels of memory it has nothing to do with. *)
Theorem C38_calloc_large_refuted : forall m1 n, 0x4000 <= n -> n < 0x100000000000 ->
  exists m', dfsw_calloc m1 1 n 0 = Ok (m', 0, 0) /\
  forall q, app_byte q -> q < 0x700000000000 + n -> label_at m' q = 0.
Proof.
  intros m1 n N1 N2. unfold dfsw_calloc.
  assert (Em : mul64 1 n = n) by (unfold mul64; rewrite N.mul_1_l; apply N.mod_small; unfold two64; lia). rewrite Em.
  assert (Es : shadow_for (add64 0 n) = 4 * n).
  { unfold add64. rewrite N.add_0_l, N.mod_small by (unfold two64; lia).
    rewrite shadow_for_low by lia. rewrite N.mod_small; [reflexivity|]. change (2 ^ 44) with 0x100000000000. lia. }
  unfold set_label_any, set_label. rewrite Es. change (shadow_for 0) with 0. change (round_up 0) with 0.
  assert (D := round_down_spec (4 * n)). set (e := round_down (4 * n)) in *.
  assert (E0 : e = 4096 * (4 * n / 4096)).
  { unfold e, round_down, PAGE. replace (4096 - 1) with (N.ones 12) by reflexivity. rewrite N.ldiff_ones_r, N.shiftl_mul_pow2, N.shiftr_div_pow2.
    change (2 ^ 12) with 4096. lia. }
  assert (E1 : 0x10000 <= e).
  { rewrite E0. assert (16 <= 4 * n / 4096) by (apply N.div_le_lower_bound; lia). lia. }
  replace (e <=? 0 + 8 * PAGE) with false by (symmetry; apply N.leb_gt; unfold PAGE in *; lia).
  cbn [negb N.eqb orb].
  replace (touches 0 (0 - 0)) with false by reflexivity.
  replace (touches e (4 * n - e)) with false by (symmetry; unfold touches; apply andb_false_iff; right; apply N.ltb_ge; unfold SHADOW_ADDR; lia).
  cbn [orb bind]. eexists. split; [reflexivity|].
  intros q Q B. unfold label_at. apply load_int_zero. intros x X1 X2.
  rewrite shadow_for_app in X1, X2 by exact Q. unfold BASE in *. cbn [N.of_nat] in X2.
  destruct (N.lt_ge_cases x e) as [G|G].
  - rewrite (proj1 (clear_spec _ _ _)) by lia. apply fill_same; lia.
  - apply (proj2 (clear_spec _ _ _)); lia.
Qed.

Print Assumptions C68_equal.
Print Assumptions C68_order_partial.
Print Assumptions C68_order_refuted.
Print Assumptions C68_returns.
Print Assumptions C68_strchr_partial.
Print Assumptions C68_strchr_refuted.
Print Assumptions C69_compare.
Print Assumptions C69_strict.
Print Assumptions C69_strlen.
Print Assumptions C69_strchr.
Print Assumptions C69_memchr.
Print Assumptions C69_strrchr.
Print Assumptions C69_strpbrk.
Print Assumptions C69_strstr.
Print Assumptions C69_strto.
Print Assumptions C69_endptr_refuted.
Print Assumptions C53_strcpy.
Print Assumptions C38_calloc.
Print Assumptions C38_calloc_failure_refuted.
Print Assumptions C38_calloc_large_refuted.

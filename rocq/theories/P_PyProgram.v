(** Proofs for T_PyProgram. *)
From Coq Require Import NArith ZArith List Bool Lia Sorted.
From Verif Require Import M_Base M_PyNode M_PyFile M_PyAnalysis M_PyProgram S_Reads P_Base.
Import ListNotations.
Open Scope N_scope.

Lemma use_at_spec i : forall fu o, (o < length fu)%nat -> exists fu', use_at fu o i = Ok fu' /\ length fu' = length fu /\
  forall k, nth_error fu' k = if Nat.eqb k o then Some (Some (match nth_error fu o with Some (Some j) => j | _ => i end)) else nth_error fu k.
Proof.
  induction fu as [|x fu IH]; intros o L; [cbn in L; lia|]. destruct o as [|o].
  - destruct x as [j|]; cbn [use_at]; (eexists; split; [reflexivity|]); (split; [reflexivity|]); intros [|k]; reflexivity.
  - cbn [length] in L. destruct (IH o ltac:(lia)) as (fu' & E & Le & H). exists (x :: fu'). split; [destruct x; cbn [use_at]; rewrite E; reflexivity|].
    split; [cbn [length]; lia|]. intros [|k]; [reflexivity|]. cbn [nth_error Nat.eqb]. apply H.
Qed.
Lemma use_at_out i : forall fu o, (length fu <= o)%nat -> use_at fu o i = Exit.
Proof. induction fu as [|x fu IH]; intros o L; [reflexivity|]. destruct o as [|o]; [cbn in L; lia|]. cbn [length] in L. destruct x; cbn [use_at]; rewrite IH by lia; reflexivity. Qed.

(** State after the reads [us]. *)
Record after (size : nat) (us : list (N * N)) (st : list (option N) * list (Z * N * N) * option N) : Prop := {
  af_len : length (fst (fst st)) = size;
  af_first : forall k i, nth_error (fst (fst st)) k = Some (Some i) <-> first_read us (N.of_nat k) i /\ (k < size)%nat;
  af_seeks : snd (fst st) = falls us;
  af_last : snd st = match rev us with (_, o) :: _ => Some o | [] => None end }.

Lemma first_read_snoc us i o k j : first_read (us ++ [(i, o)]) k j <-> first_read us k j \/ ~ was_read us k /\ k = o /\ j = i.
Proof.
  split.
  - intros (a & b & E & N). destruct (rev b) as [|[x y] rb] eqn:Eb.
    + apply (f_equal (@rev _)) in Eb. rewrite rev_involutive in Eb. subst b. apply app_inj_tail in E as [-> E]. inversion E; subst. auto.
    + apply (f_equal (@rev _)) in Eb. rewrite rev_involutive in Eb. cbn [rev] in Eb. subst b. rewrite app_comm_cons, app_assoc in E. apply app_inj_tail in E as [-> _]. left. exists a, (rev rb). auto.
  - intros [(a & b & -> & N)|(N & -> & ->)]; [exists a, (b ++ [(i, o)]); rewrite <- app_assoc; auto|exists us, []; auto].
Qed.
Lemma falls_snoc us : forall i o, falls (us ++ [(i, o)]) = falls us ++ match rev us with (_, l) :: _ => if o <? l then [((Z.of_N i - 1)%Z, l, o)] else [] | [] => [] end.
Proof.
  induction us as [|[x a] us IH]; intros i o; [reflexivity|]. destruct us as [|[y b] us]; [cbn; now rewrite app_nil_r|].
  cbn [app]. change (falls ((x, a) :: (y, b) :: us ++ [(i, o)])) with ((if b <? a then [((Z.of_N y - 1)%Z, a, b)] else []) ++ falls (((y, b) :: us) ++ [(i, o)])).
  rewrite IH. change (falls ((x, a) :: (y, b) :: us)) with ((if b <? a then [((Z.of_N y - 1)%Z, a, b)] else []) ++ falls ((y, b) :: us)). rewrite <- app_assoc. do 2 f_equal.
  cbn [rev]. destruct (rev us ++ [(y, b)]) as [|[u v] w] eqn:E; [destruct (rev us); discriminate|]. reflexivity.
Qed.
Lemma read_dec us k : was_read us k \/ ~ was_read us k.
Proof.
  destruct (existsb (fun x => snd x =? k) us) eqn:E.
  - left. apply existsb_exists in E as ([i o] & I & Q). cbn in Q. apply N.eqb_eq in Q. subst. exists i. exact I.
  - right. intros (i & I). assert (existsb (fun x => snd x =? k) us = true) by (apply existsb_exists; exists (i, k); split; [exact I|apply N.eqb_refl]). congruence.
Qed.
Lemma first_read_fun us k i j : first_read us k i -> first_read us k j -> i = j.
Proof.
  intros (a & b & -> & N) (a' & b' & E & N'). revert a' E N N'. induction a as [|x a IH]; intros [|y a'] E N N'; cbn [app] in E; inversion E; subst; [reflexivity| | |].
  - exfalso. apply N'. exists i. now left.
  - exfalso. apply N. exists j. now left.
  - apply (IH a' H1); intros (u & I); [apply N|apply N']; exists u; now right.
Qed.
Lemma read_first us k : was_read us k -> exists i, first_read us k i.
Proof.
  induction us as [|[i o] us IH] using rev_ind; intros (j & I); [destruct I|]. destruct (read_dec us k) as [R|R].
  - destruct (IH R) as (x & F). exists x. apply first_read_snoc. now left.
  - apply in_app_iff in I as [I|[I|[]]]; [exfalso; apply R; exists j; exact I|]. inversion I; subst. exists j. apply first_read_snoc. auto.
Qed.
Lemma first_was us k i : first_read us k i -> was_read us k.
Proof. intros (a & b & -> & _). exists i. apply in_app_iff. right. now left. Qed.

Lemma after_use size us fu seeks lst i o : after size us (fu, seeks, lst) -> (N.to_nat o < size)%nat -> exists fu', use_at fu (N.to_nat o) i = Ok fu' /\
  after size (us ++ [(i, o)]) (fu', match lst with Some l => if o <? l then seeks ++ [((Z.of_N i - 1)%Z, l, o)] else seeks | None => seeks end, Some o).
Proof.
  intros [L F S La] Ho. cbn [fst snd] in *. destruct (use_at_spec i fu (N.to_nat o) ltac:(lia)) as (fu' & E & L' & H). exists fu'. split; [exact E|]. split; cbn [fst snd].
  - lia.
  - intros k j. rewrite H, first_read_snoc. destruct (Nat.eqb_spec k (N.to_nat o)) as [->|Ne].
    + rewrite N2Nat.id. specialize (F (N.to_nat o)). rewrite N2Nat.id in F. destruct (nth_error fu (N.to_nat o)) as [[x|]|] eqn:En.
      * assert (Fx := proj1 (proj1 (F x) eq_refl)). split; [intros Q; inversion Q; subst; auto|]. intros ([Fj|(N & _)] & _); [now rewrite (first_read_fun _ _ _ _ Fx Fj)|]. exfalso. apply N. eapply first_was, Fx.
      * split; [intros Q; inversion Q; subst; split; [|exact Ho]; right; split; [|auto]|].
        -- intros R. apply read_first in R as (x & Fx). assert (Q2 : Some None = Some (Some x)) by (apply F; auto). discriminate Q2.
        -- intros ([Fj|(_ & _ & ->)] & _); [|reflexivity]. assert (Q2 : Some None = Some (Some j)) by (apply F; auto). discriminate Q2.
      * apply nth_error_None in En. lia.
    + rewrite F. split; [tauto|]. intros ([Fj|(_ & Q & _)] & K); [auto|]. exfalso. apply Ne. rewrite <- Q. now rewrite Nat2N.id.
  - rewrite falls_snoc, <- S, La. destruct (rev us) as [|[x l] w]; [now rewrite app_nil_r|]. destruct (o <? l); [reflexivity|now rewrite app_nil_r].
  - now rewrite rev_app_distr.
Qed.
Lemma access_after size src i a : forall us st, after size us st -> (forall o, In (src, o) a -> o < N.of_nat size) -> exists st', access_loop src i a st = Ok st' /\
  after size (us ++ map (fun x => (i, snd x)) (filter (fun x => fst x =? src) a)) st'.
Proof.
  induction a as [|[s o] a IH]; intros us st A H; [exists st; rewrite app_nil_r; auto|]. cbn [access_loop filter fst]. destruct (N.eqb_spec s src) as [->|Ne]; cbn [negb].
  - destruct st as [[fu seeks] lst]. destruct (after_use size us fu seeks lst i o A) as (fu' & E & A'); [specialize (H o (or_introl eq_refl)); lia|]. rewrite E. cbn [bind].
    destruct (IH _ _ A') as (st' & E' & A2); [intros o' I; apply H; now right|]. exists st'. split; [exact E'|]. cbn [map snd]. now rewrite <- app_assoc in A2.
  - apply IH; [exact A|]. intros o' I. apply H. now right.
Qed.
Lemma accesses_after size src accs : forall i us st, after size us st -> (forall a o, In a accs -> In (src, o) a -> o < N.of_nat size) -> exists st', accesses_loop src i accs st = Ok st' /\
  after size (us ++ reads_from src i accs) st'.
Proof.
  induction accs as [|a accs IH]; intros i us st A H; [exists st; cbn [reads_from]; rewrite app_nil_r; auto|]. cbn [accesses_loop reads_from].
  destruct (access_after size src i a us st A) as (st' & -> & A'); [intros o; apply H; now left|]. cbn [bind].
  destruct (IH (i + 1) _ _ A') as (st2 & E & A2); [intros x o I; apply H; now right|]. exists st2. split; [exact E|]. now rewrite app_assoc.
Qed.
Lemma after_start size : after size [] (repeat None size, [], None).
Proof.
  split; cbn [fst snd]; [apply repeat_length| |reflexivity|reflexivity]. intros k i. split; [|intros [(a & b & E & _) _]; destruct a; discriminate].
  intros E. apply nth_error_In, repeat_spec in E. discriminate.
Qed.
Lemma in_reads src accs : forall i j o, In (j, o) (reads_from src i accs) -> exists a, In a accs /\ In (src, o) a.
Proof.
  induction accs as [|a accs IH]; intros i j o I; [destruct I|]. cbn [reads_from] in I. apply in_app_iff in I as [I|I].
  - apply in_map_iff in I as ([s o'] & E & I). apply filter_In in I as [I Q]. cbn in *. apply N.eqb_eq in Q. inversion E; subst. exists a. split; [now left|exact I].
  - destruct (IH _ _ _ I) as (x & X & Y). exists x. split; [now right|exact Y].
Qed.
Lemma reads_in src accs : forall i a o, In a accs -> In (src, o) a -> exists j, In (j, o) (reads_from src i accs).
Proof.
  induction accs as [|x accs IH]; intros i a o I J; [destruct I|]. cbn [reads_from]. destruct I as [->|I].
  - exists i. apply in_app_iff. left. apply in_map_iff. exists (src, o). split; [reflexivity|]. apply filter_In. split; [exact J|apply N.eqb_refl].
  - destruct (IH (i + 1) a o I J) as (j & H). exists j. apply in_app_iff. now right.
Qed.

Lemma unused_spec fu : forall o x, In x (unused_from o fu) <-> exists k, x = o + N.of_nat k /\ nth_error fu k = Some None.
Proof.
  induction fu as [|[j|] fu IH]; intros o x; cbn [unused_from].
  - split; [intros []|]. intros ([|k] & _ & E); discriminate.
  - rewrite IH. split; intros (k & -> & E); [exists (S k); split; [lia|exact E]|]. destruct k as [|k]; [discriminate|]. exists k. split; [lia|exact E].
  - cbn [In]. rewrite IH. split.
    + intros [<-|(k & -> & E)]; [exists 0%nat; split; [lia|reflexivity]|exists (S k); split; [lia|exact E]].
    + intros ([|k] & -> & E); [left; lia|right; exists k; split; [lia|exact E]].
Qed.
Lemma out_spec fu : (forall k, (k < length fu)%nat -> exists i, nth_error fu k = Some (Some i)) -> forall o, exists l, out_from o fu = Ok l /\
  (forall x, In x l <-> exists k i j, x = o + N.of_nat k + 1 /\ nth_error fu k = Some (Some i) /\ nth_error fu (S k) = Some (Some j) /\ j < i) /\
  StronglySorted N.lt l /\ (forall x, In x l -> o < x).
Proof.
  induction fu as [|x fu IH]; intros H o.
  - exists []. split; [reflexivity|]. split; [|split; [constructor|intros x []]]. intros y. split; [intros []|]. intros (k & i & j & _ & E & _). destruct k; discriminate.
  - destruct fu as [|y fu].
    + exists []. split; [reflexivity|]. split; [|split; [constructor|intros z []]]. intros z. split; [intros []|]. intros (k & i & j & _ & _ & E & _). destruct k; discriminate.
    + destruct (H 0%nat ltac:(cbn; lia)) as (i0 & E0). destruct (H 1%nat ltac:(cbn; lia)) as (i1 & E1). cbn in E0, E1. inversion E0; inversion E1; subst x y.
      destruct (IH ltac:(intros k Hk; apply (H (S k)); cbn [length] in *; lia) (o + 1)) as (l & El & Il & Sl & Lo).
      exists (if i1 <? i0 then o + 1 :: l else l). split; [|split; [|split]].
      * change (out_from o (Some i0 :: Some i1 :: fu)) with (do rest <- out_from (o + 1) (Some i1 :: fu); Ok (if i1 <? i0 then o + 1 :: rest else rest)). now rewrite El.
      * intros z. split.
        -- intros I. assert (D : z = o + 1 /\ i1 < i0 \/ In z l) by (destruct (N.ltb_spec i1 i0); [destruct I as [<-|I]; auto|auto]). destruct D as [(-> & Lt)|I'].
           ++ exists 0%nat, i0, i1. split; [lia|]. split; [reflexivity|]. split; [reflexivity|exact Lt].
           ++ apply Il in I' as (k & i & j & -> & A & B & C). exists (S k), i, j. split; [lia|auto].
        -- intros (k & i & j & -> & A & B & C). destruct k as [|k].
           ++ cbn in A, B. inversion A; inversion B; subst. rewrite (proj2 (N.ltb_lt j i) C). left. lia.
           ++ assert (I : In (o + N.of_nat (S k) + 1) l) by (apply Il; exists k, i, j; split; [lia|auto]). destruct (i1 <? i0); [now right|exact I].
      * destruct (i1 <? i0); [|exact Sl]. constructor; [exact Sl|]. apply Forall_forall. intros z I. apply Lo in I. lia.
      * intros z I. destruct (i1 <? i0); [destruct I as [<-|I]; [lia|]|]; apply Lo in I; lia.
Qed.
Lemma out_none fu : forall o k, nth_error fu k = Some None -> (2 <= length fu)%nat -> out_from o fu = Exit.
Proof.
  induction fu as [|x fu IH]; intros o k E L; [destruct k; discriminate|]. destruct fu as [|y fu]; [cbn in L; lia|].
  destruct x as [i|]; [|reflexivity]. destruct y as [j|]; [|reflexivity]. destruct k as [|k]; [discriminate|].
  change (out_from o (Some i :: Some j :: fu)) with (do rest <- out_from (o + 1) (Some j :: fu); Ok (if j <? i then o + 1 :: rest else rest)).
  rewrite (IH (o + 1) k E); [reflexivity|]. destruct k as [|k]; [discriminate|]. destruct fu; [destruct k; discriminate|cbn; lia].
Qed.

(** ** taints *)
Lemma node_in_iff n l : node_in n l = true <-> exists m, In m l /\ fn_label m = fn_label n.
Proof. unfold node_in. rewrite existsb_exists. split; intros (m & I & E); exists m; (split; [exact I|]); now apply Z.eqb_eq. Qed.
Lemma taints_seen d seen : forall stack fo fuel, (forall n, In n stack -> node_in n seen = true) -> (length stack < fuel)%nat -> taints_loop fuel d fo seen stack [] = Ok ([], fo).
Proof.
  induction stack as [|n stack IH]; intros fo fuel H L; (destruct fuel; [cbn in L; lia|]); [reflexivity|]. cbn [taints_loop]. rewrite (H n (or_introl eq_refl)).
  apply IH; [intros m I; apply H; now right|cbn in L; lia].
Qed.
Lemma taints_any d seen : forall stack fo fuel r, (forall n, In n stack -> node_in n seen = true) -> taints_loop fuel d fo seen stack [] = Ok r -> r = ([], fo).
Proof.
  induction stack as [|n stack IH]; intros fo fuel r H E; (destruct fuel; [discriminate|]); cbn [taints_loop] in E; [now inversion E|]. rewrite (H n (or_introl eq_refl)) in E.
  apply (IH _ _ _ (fun m I => H m (or_intror I)) E).
Qed.
Lemma node_set_len ns : (length (node_set ns) <= length ns)%nat.
Proof.
  unfold node_set. assert (G : forall l s, (length (fold_left (fun s n => if node_in n s then s else s ++ [n]) l s) <= length s + length l)%nat).
  { induction l as [|n l IH]; intros s; cbn [fold_left length]; [lia|]. specialize (IH (if node_in n s then s else s ++ [n])). destruct (node_in n s); [lia|]. rewrite app_length in IH. cbn [length] in IH. lia. }
  apply (G ns []).
Qed.
Lemma taints_nothing fuel d fo ns : (length ns < fuel)%nat -> trace_taints fuel d fo ns = Ok ([], fo).
Proof.
  intros L. unfold trace_taints. apply taints_seen.
  - intros n I. apply node_in_iff. exists n. split; [now apply in_rev|reflexivity].
  - rewrite rev_length. assert (X := node_set_len ns). lia.
Qed.

(** ** Order *)
Lemma reads_index src accs : forall i, StronglySorted N.le (map fst (reads_from src i accs)) /\ Forall (fun x => i <= fst x) (reads_from src i accs).
Proof.
  induction accs as [|a accs IH]; intros i; [split; constructor|]. cbn [reads_from]. destruct (IH (i + 1)) as [S F]. set (l := filter _ a).
  assert (G : forall m : list (N * N), StronglySorted N.le (map fst (map (fun x => (i, snd x)) m ++ reads_from src (i + 1) accs))).
  { induction m as [|x m IHm]; [exact S|]. cbn [map app fst]. constructor; [exact IHm|]. apply Forall_forall. intros y Y. apply in_map_iff in Y as (z & <- & Z). apply in_app_iff in Z as [Z|Z].
    - apply in_map_iff in Z as (w & <- & _). cbn. lia.
    - rewrite Forall_forall in F. apply F in Z. lia. }
  split; [apply G|]. apply Forall_app. split.
  - apply Forall_forall. intros y Y. apply in_map_iff in Y as (w & <- & _). cbn. lia.
  - eapply Forall_impl; [|exact F]. cbn. lia.
Qed.
Lemma sorted_mid (A : Type) (f : A -> N) (a : list A) x b : StronglySorted N.le (map f (a ++ x :: b)) -> (forall y, In y a -> f y <= f x) /\ (forall y, In y b -> f x <= f y).
Proof.
  induction a as [|z a IH]; cbn [app map]; intros S; apply StronglySorted_inv in S as [S F].
  - split; [intros y []|]. intros y I. rewrite Forall_forall in F. apply F, in_map, I.
  - destruct (IH S) as [H1 H2]. split; [|exact H2]. intros y [<-|I]; [|exact (H1 y I)]. rewrite Forall_forall in F. apply F, in_map, in_app_iff. right. now left.
Qed.
Lemma order_first us : StronglySorted N.le (map fst us) -> StronglySorted N.le (map snd us) -> forall o o' i j, first_read us o i -> first_read us o' j -> o < o' -> i <= j.
Proof.
  intros S1 S2 o o' i j (a & b & -> & N) (a' & b' & E & _) L. destruct (sorted_mid _ _ _ _ _ S1) as [A1 A2], (sorted_mid _ _ _ _ _ S2) as [B1 B2]. cbn [fst snd] in *.
  assert (I : In (j, o') (a ++ (i, o) :: b)) by (rewrite E; apply in_app_iff; right; now left). apply in_app_iff in I as [I|[I|I]].
  - specialize (B1 _ I). cbn in B1. lia.
  - inversion I. lia.
  - exact (A2 _ I).
Qed.

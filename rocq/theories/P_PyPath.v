(** Lemmas about the paths made of recorded names (M_PyFile). *)
From Coq Require Import NArith List Bool Lia.
From Verif Require Import M_Base M_Memory M_PyNode M_PySections M_PyFile S_PyPath.
Import ListNotations.
Open Scope N_scope.

Lemma split_piece : forall p rest cur, ~ In slash p ->
  split_slash (p ++ rest) cur = split_slash rest (rev p ++ cur).
Proof.
  induction p as [|c p IH]; intros rest cur N; [reflexivity|]. cbn [app split_slash].
  destruct (N.eqb_spec c slash) as [->|_]; [exfalso; apply N; now left|].
  rewrite IH by (intros I; apply N; now right). cbn [rev]. now rewrite <- app_assoc.
Qed.
Lemma split_joined : forall ps, ps <> [] -> Forall (fun p => ~ In slash p) ps -> split_slash (joined_by slash ps) [] = ps.
Proof.
  induction ps as [|p ps IH]; intros Ne F; [congruence|]. inversion F as [|? ? Hp Fr]; subst.
  cbn [joined_by]. destruct ps as [|q ps].
  - replace (split_slash p []) with (split_slash (p ++ []) []) by now rewrite app_nil_r.
    rewrite split_piece by exact Hp. cbn [split_slash]. now rewrite app_nil_r, rev_involutive.
  - rewrite split_piece by exact Hp. cbn [split_slash]. rewrite N.eqb_refl, app_nil_r, rev_involutive.
    f_equal. apply IH; [discriminate|exact Fr].
Qed.
Lemma useful_iff c : useful c = true <-> c <> [] /\ c <> [dot].
Proof.
  destruct c as [|x [|y r]]; cbn [useful].
  - split; [discriminate|intros [H _]; congruence].
  - destruct (N.eqb_spec x dot) as [->|Nx]; cbn [negb]; split; try congruence; try (intros [_ H]; congruence).
    intros _. split; congruence.
  - split; [|reflexivity]. intros _. split; congruence.
Qed.

(** Invariants of interleavings. *)
From Coq Require Import NArith List Lia.
From Verif Require Import M_Base M_Conc P_Base.
Import ListNotations.
Open Scope N_scope.

Section Machine.
  Context {S T C : Type}.
  Variable step : N -> C -> T -> S -> option (T * S).

  Lemma move_cases c x : move step c x = c \/
    exists t r, get (snd c) (fst x) = Some t /\ step (fst x) (snd x) t (fst c) = Some r /\
      move step c x = (snd r, upd (snd c) (fst x) (fst r)).
  Proof.
    unfold move. destruct (get (snd c) (fst x)) as [t|] eqn:G; [|auto].
    destruct (step (fst x) (snd x) t (fst c)) as [r|] eqn:E; [|auto].
    right. exists t, r. auto.
  Qed.

  Lemma run_inv (I : S -> list T -> Prop) s ts schedule :
    (forall s ts i ch t t' s', I s ts -> get ts i = Some t -> step i ch t s = Some (t', s') ->
       I s' (upd ts i t')) ->
    I s ts -> I (fst (run step (s, ts) schedule)) (snd (run step (s, ts) schedule)).
  Proof.
    intros K H. unfold run. revert s ts H. induction schedule as [|x l IH]; intros s ts H; [exact H|].
    cbn [fold_left]. destruct (move_cases (s, ts) x) as [E|(t & [t' s'] & G & E & M)].
    - rewrite E. now apply IH.
    - rewrite M. apply IH. cbn [fst snd] in *. eapply K; eauto.
  Qed.

  Lemma run_app c a b : run step c (a ++ b) = run step (run step c a) b.
  Proof. unfold run. apply fold_left_app. Qed.

  Lemma run_threads s ts schedule : len (snd (run step (s, ts) schedule)) = len ts.
  Proof.
    apply (run_inv (fun _ ts' => len ts' = len ts)); [|reflexivity].
    intros. now rewrite len_upd.
  Qed.
End Machine.

(** C129: the directives for versions of a symbol follow the renaming of its function. *)
From Coq Require Import Arith NArith List Bool Lia.
From Verif Require Import M_Base M_Symver.
Import ListNotations.
Open Scope N_scope.

(** Specification.  An assembly text of lines; a line mentions a directive for a name. *)
Definition text (lines : list (list N)) : list N := concat (map (fun l => l ++ [10]) lines).
(** ".symver name," *)
Definition directive (name : list N) : list N := [46; 115; 121; 109; 118; 101; 114; 32] ++ name ++ [44].
(** "dfs$name" *)
Definition instrumented (name : list N) : list N := [100; 102; 115; 36] ++ name.
Definition mentions (name line : list N) : Prop := exists a b, line = a ++ directive name ++ b.

Lemma starts_with_app p r : starts_with p (p ++ r) = true.
Proof. induction p as [|x p IH]; [now destruct r|]. cbn. now rewrite N.eqb_refl. Qed.
Lemma starts_with_line p l r : ~ In 10 p -> starts_with p (l ++ 10 :: r) = true -> exists b, l = p ++ b.
Proof.
  revert l; induction p as [|x p IH]; intros l NI H; [now exists l|].
  destruct l as [|y l]; cbn in H; apply andb_true_iff in H; destruct H as [H1 H2]; apply N.eqb_eq in H1; subst.
  - exfalso. apply NI. now left.
  - destruct (IH l (fun X => NI (or_intror X)) H2) as [b ->]. now exists b.
Qed.
Lemma find_line p l r : p <> [] -> ~ In 10 p -> (forall a b, l <> a ++ p ++ b) ->
  find p (l ++ 10 :: r) = option_map (fun n => (S (length l) + n)%nat) (find p r).
Proof.
  intros NE NI. induction l as [|c l IH]; intros H.
  - cbn [app find length]. destruct (starts_with p (10 :: r)) eqn:E.
    + destruct (starts_with_line p [] r NI E) as [b B]. exfalso. apply (H [] b). exact B.
    + destruct (find p r); reflexivity.
  - cbn [app find length]. destruct (starts_with p (c :: l ++ 10 :: r)) eqn:E.
    + destruct (starts_with_line p (c :: l) r NI E) as [b B]. exfalso. apply (H [] b). exact B.
    + rewrite IH by (intros a b ->; apply (H (c :: a) b); reflexivity).
      destruct (find p r); reflexivity.
Qed.
Lemma find_text p pre r : p <> [] -> ~ In 10 p -> (forall l, In l pre -> forall a b, l <> a ++ p ++ b) ->
  find p (text pre ++ r) = option_map (fun n => (length (text pre) + n)%nat) (find p r).
Proof.
  intros NE NI. unfold text. induction pre as [|l pre IH]; intros H; cbn [map concat app].
  - cbn. now destruct (find p r).
  - rewrite <- !app_assoc. cbn [app]. rewrite find_line; [|easy|easy|apply H; now left].
    rewrite IH by (intros; apply H; now right).
    destruct (find p r); cbn [option_map]; [|easy]. f_equal. rewrite !app_length. cbn [length]. lia.
Qed.
Lemma directive_newline name : ~ In 10 name -> ~ In 10 (search_string name).
Proof.
  intros H X. unfold search_string, symver in X. cbn in X.
  repeat (destruct X as [X|X]; [discriminate|]). apply in_app_or in X. destruct X as [X|[X|[]]]; [easy|discriminate].
Qed.

(** The function is renamed, whatever its name and the assembly. *)
Theorem C129_name : forall name asm, fst (add_prefix name asm) = instrumented name.
Proof. reflexivity. Qed.
Print Assumptions C129_name.

(** Assembly that mentions no directive for the function is left alone. *)
Theorem C129_others : forall name lines, ~ In 10 name ->
  (forall l, In l lines -> ~ mentions name l) -> snd (add_prefix name (text lines)) = text lines.
Proof.
  intros name lines NI H. cbn [snd add_prefix]. unfold rewrite_asm.
  rewrite <- (app_nil_r (text lines)).
  rewrite find_text; [reflexivity|discriminate|now apply directive_newline|].
  intros l L a b E. apply (H l L). exists a, b. exact E.
Qed.
Print Assumptions C129_others.

(** The first line that is a directive for the function names the instrumented function and
    the instrumented version afterwards; every other line is left alone. *)
Theorem C129_first_partial : forall name pre version post, ~ In 10 name ->
  (forall l, In l pre -> ~ mentions name l) ->
  snd (add_prefix name (text (pre ++ (directive name ++ version) :: post))) =
    text (pre ++ (directive (instrumented name) ++ instrumented version) :: post).
Proof.
  intros name pre version post NI H. cbn [snd add_prefix]. unfold rewrite_asm.
  assert (forall l, text (pre ++ l :: post) = text pre ++ l ++ 10 :: text post) as T.
  { intros l. unfold text. rewrite map_app, concat_app. cbn [map concat]. now rewrite <- !app_assoc. }
  rewrite !T. rewrite find_text; [|discriminate|now apply directive_newline|].
  2:{ intros l L a b E. apply (H l L). exists a, b. exact E. }
  change (directive name) with (search_string name).
  replace (find (search_string name) ((search_string name ++ version) ++ 10 :: text post)) with (Some 0%nat).
  2:{ rewrite <- app_assoc. destruct (search_string name) as [|c s] eqn:E; [discriminate|]. cbn [find app].
      change (c :: s ++ version ++ 10 :: text post) with ((c :: s) ++ version ++ 10 :: text post).
      now rewrite starts_with_app. }
  cbn [option_map]. rewrite Nat.add_0_r, firstn_app, firstn_all, Nat.sub_diag, firstn_O, app_nil_r.
  f_equal. rewrite skipn_app, skipn_all2 by lia.
  replace (length (text pre) + length (search_string name) - length (text pre))%nat with (length (search_string name)) by lia.
  replace (skipn (length (search_string name)) ((search_string name ++ version) ++ 10 :: text post))
    with (version ++ 10 :: text post)
    by (now rewrite <- app_assoc, skipn_app, skipn_all, Nat.sub_diag).
  cbn [app].
  unfold directive, instrumented, symver, dfs_prefix. cbn [app].
  repeat (rewrite <- !app_assoc; cbn [app]). reflexivity.
Qed.
Print Assumptions C129_first_partial.

(** ".symver g,g@1" and ".symver f,f@1" for the function f. *)
Example C129_case :
  let g := directive [103] ++ [103; 64; 49] in let f := directive [102] ++ [102; 64; 49] in
  ~ mentions [102] g /\ ~ In 10 [102]
  /\ snd (add_prefix [102] (text [g; f; g]))
     = text [g; symver ++ [100; 102; 115; 36; 102; 44; 100; 102; 115; 36; 102; 64; 49]; g].
Proof.
  cbn zeta. repeat split.
  - intros (a & b & E).
    assert (find (directive [102]) (directive [103] ++ [103; 64; 49]) = None) as F by reflexivity.
    rewrite E in F. clear E. induction a as [|c a IH].
    + change ([] ++ directive [102] ++ b) with (46 :: (skipn 1 (directive [102]) ++ b)) in F.
      unfold find in F. fold find in F.
      change (starts_with (directive [102]) (46 :: skipn 1 (directive [102]) ++ b)) with
        (starts_with (directive [102]) (directive [102] ++ b)) in F.
      rewrite starts_with_app in F. discriminate.
    + cbn [app find] in F. destruct (starts_with _ _); [discriminate|].
      apply IH. destruct (find (directive [102]) (a ++ directive [102] ++ b)); [discriminate|reflexivity].
  - intros [X|[]]; discriminate.
Qed.

(** A function with two versions: its second directive still names the function that no
    longer exists under that name. *)
Theorem C129_second_refuted : exists name lines line,
  In line lines /\ mentions name line /\
  exists rest, snd (add_prefix name (text lines)) = rest ++ line ++ [10].
Proof.
  exists [102], [directive [102] ++ [102; 64; 49]; directive [102] ++ [102; 64; 50]],
    (directive [102] ++ [102; 64; 50]).
  split; [right; now left|]. split; [now exists [], [102; 64; 50]|].
  exists (directive (instrumented [102]) ++ instrumented [102; 64; 49] ++ [10]). reflexivity.
Qed.
Print Assumptions C129_second_refuted.

(** A space behind the comma, as assemblers allow, ends up within the name of the version. *)
Theorem C129_space_refuted : exists name version,
  snd (add_prefix name (text [directive name ++ 32 :: version]))
  = text [directive (instrumented name) ++ [100; 102; 115; 36; 32] ++ version]
  /\ [100; 102; 115; 36; 32] ++ version <> 32 :: instrumented version.
Proof. exists [102], [102; 64; 49]. split; [reflexivity|discriminate]. Qed.
Print Assumptions C129_space_refuted.

(** A directive separated by a tabulator is not renamed. *)
Theorem C129_tab_refuted : forall name, ~ In 10 name -> exists line,
  line = [46; 115; 121; 109; 118; 101; 114; 9] ++ name ++ [44] /\
  snd (add_prefix name (text [line])) = text [line].
Proof.
  intros name NI. eexists. split; [reflexivity|]. apply C129_others; [exact NI|].
  intros l [<-|[]] (a & b & E).
  assert (length ([46; 115; 121; 109; 118; 101; 114; 9] ++ name ++ [44])
          = length (a ++ directive name ++ b)) as L by now rewrite E.
  unfold directive in *. rewrite !app_length in L. cbn [length] in L.
  destruct a; cbn [length] in L; [|lia]. cbn in E. discriminate.
Qed.
Print Assumptions C129_tab_refuted.

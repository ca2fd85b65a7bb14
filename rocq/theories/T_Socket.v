(** C104: network connections get names of their own which tell their end points. *)
From Coq Require Import NArith ZArith List Bool Lia.
From Verif Require Import M_Base M_Memory M_OutputFile M_Api M_Runtime M_Socket
  S_Strings S_Runtime S_Socket S_Api P_Base P_Api P_ApiDemo P_Argv.
Import ListNotations.
Open Scope N_scope.

(** ** Texts *)
Lemma byte_text n : n < 65536 -> decimal (to_string n) n /\ (length (to_string n) <= 20)%nat.
Proof. intros H. apply to_string_spec. change (10 ^ 20) with 100000000000000000000. lia. Qed.

Lemma port_swap n : n < 65536 -> ntohs (n / 256 + 256 * (n mod 256 + 256 * 0)) = n.
Proof.
  intros H. unfold ntohs. assert (A := N.div_mod n 256 ltac:(lia)). assert (B := N.mod_lt n 256 ltac:(lia)).
  assert (C : n / 256 < 256) by (apply N.div_lt_upper_bound; lia).
  replace (n / 256 + 256 * (n mod 256 + 256 * 0)) with (n / 256 + n mod 256 * 256) by lia.
  rewrite N.mod_add, N.div_add, (N.mod_small (n / 256)), (N.div_small (n / 256)) by lia. lia.
Qed.

Definition text_of (e : endpoint) : list N := inet_ntop [e_a e; e_b e; e_c e; e_d e] ++ [58] ++ to_string (e_port e).

Lemma text_of_ok e : endpoint_ok e -> endpoint_text e (text_of e) /\ (length (text_of e) <= 104)%nat /\ Forall (fun c => c < 256) (text_of e).
Proof.
  intros (A & B & C & D & P). unfold text_of, inet_ntop.
  destruct (byte_text (e_a e) ltac:(lia)) as (Ha & La), (byte_text (e_b e) ltac:(lia)) as (Hb & Lb),
    (byte_text (e_c e) ltac:(lia)) as (Hc & Lc), (byte_text (e_d e) ltac:(lia)) as (Hd & Ld), (byte_text (e_port e) P) as (Hp & Lp).
  revert Ha La Hb Lb Hc Lc Hd Ld Hp Lp.
  generalize (to_string (e_a e)) (to_string (e_b e)) (to_string (e_c e)) (to_string (e_d e)) (to_string (e_port e)).
  intros ta tb tc td tp Ha La Hb Lb Hc Lc Hd Ld Hp Lp. split; [|split].
  - exists ta, tb, tc, td, tp.
    repeat (split; [assumption|]). now rewrite <- !app_assoc.
  - rewrite !app_length. cbn [length]. lia.
  - assert (Q : forall ds n, decimal ds n -> Forall (fun c => c < 256) ds).
    { intros ds n (D1 & _). eapply Forall_impl; [|exact D1]. unfold digit. intros c Hx. cbv beta. lia. }
    rewrite !Forall_app. repeat match goal with |- _ /\ _ => split end; try (eapply Q; eassumption);
      (constructor; [lia|constructor]).
Qed.

Lemma name_of g1 g2 l r pad pad' : endpoint_ok l -> endpoint_ok r -> length pad = 8%nat -> length pad' = 8%nat ->
  connect_name g1 g2 (Some (sockaddr l pad)) (Some (sockaddr r pad'))
  = Ok (Some ([115; 111; 99; 107; 101; 116; 58] ++ text_of l ++ [45] ++ text_of r)).
Proof.
  intros (_ & _ & _ & _ & P) (_ & _ & _ & _ & P') L L'.
  do 9 (destruct pad as [|? pad]; [try discriminate L|]); [|discriminate L].
  do 9 (destruct pad' as [|? pad']; [try discriminate L'|]); [|discriminate L'].
  unfold connect_name, copy_address, sockaddr, sockaddr_size.
  cbn -[text_of N.div N.modulo N.mul N.add to_string ntohs]. change (2 + two8 * (0 + two8 * 0) =? AF_INET) with true. cbn [negb].
  change two8 with 256. rewrite !port_swap by assumption. unfold text_of, inet_ntop. cbn [app]. do 2 f_equal. do 7 f_equal.
  rewrite <- !app_assoc. cbn [app]. reflexivity.
Qed.

(** ** Parsing *)
Lemma digits_end a b c d x y : Forall digit a -> Forall digit b -> ~ digit c -> ~ digit d -> a ++ c :: x = b ++ d :: y ->
  a = b /\ c = d /\ x = y.
Proof.
  revert b. induction a as [|u a IH]; intros [|v b] A B C D E; cbn [app] in E.
  - injection E as -> ->. auto.
  - injection E as -> _. inversion B. contradiction.
  - injection E as -> _. inversion A. contradiction.
  - injection E as -> E. inversion A. inversion B. subst. destruct (IH b) as (-> & -> & ->); auto.
Qed.

Lemma digits_all a b : Forall digit a -> Forall digit b -> forall c x, ~ digit c -> a = b ++ c :: x -> False.
Proof. intros A B c x C E. rewrite E in A. apply Forall_app in A as (_ & A). inversion A. contradiction. Qed.

Lemma decimal_fun ds n m : decimal ds n -> decimal ds m -> n = m.
Proof. intros (_ & _ & _ & <-) (_ & _ & _ & <-). reflexivity. Qed.

Ltac nodigit := unfold digit; lia.

Lemma endpoint_unique_end e f t : endpoint_text e t -> endpoint_text f t -> e = f.
Proof.
  intros (a & b & c & d & p & A & B & C & D & P & E) (a' & b' & c' & d' & p' & A' & B' & C' & D' & P' & E').
  rewrite E' in E. cbn [app] in E.
  destruct (digits_end a' a 46 46 _ _ (proj1 A') (proj1 A) ltac:(nodigit) ltac:(nodigit) E) as (-> & _ & E1).
  destruct (digits_end b' b 46 46 _ _ (proj1 B') (proj1 B) ltac:(nodigit) ltac:(nodigit) E1) as (-> & _ & E2).
  destruct (digits_end c' c 46 46 _ _ (proj1 C') (proj1 C) ltac:(nodigit) ltac:(nodigit) E2) as (-> & _ & E3).
  destruct (digits_end d' d 58 58 _ _ (proj1 D') (proj1 D) ltac:(nodigit) ltac:(nodigit) E3) as (-> & _ & ->).
  destruct e, f; cbn in *. f_equal; eauto using decimal_fun.
Qed.

Lemma endpoint_unique e f t u x y : endpoint_text e t -> endpoint_text f u -> t ++ 45 :: x = u ++ 45 :: y -> e = f /\ x = y.
Proof.
  intros (a & b & c & d & p & A & B & C & D & P & Et) (a' & b' & c' & d' & p' & A' & B' & C' & D' & P' & Eu) E.
  rewrite Et, Eu in E. repeat (progress (rewrite <- ?app_assoc in E; cbn [app] in E)).
  destruct (digits_end a a' 46 46 _ _ (proj1 A) (proj1 A') ltac:(nodigit) ltac:(nodigit) E) as (-> & _ & E1).
  destruct (digits_end b b' 46 46 _ _ (proj1 B) (proj1 B') ltac:(nodigit) ltac:(nodigit) E1) as (-> & _ & E2).
  destruct (digits_end c c' 46 46 _ _ (proj1 C) (proj1 C') ltac:(nodigit) ltac:(nodigit) E2) as (-> & _ & E3).
  destruct (digits_end d d' 58 58 _ _ (proj1 D) (proj1 D') ltac:(nodigit) ltac:(nodigit) E3) as (-> & _ & E4).
  destruct (digits_end p p' 45 45 _ _ (proj1 P) (proj1 P') ltac:(nodigit) ltac:(nodigit) E4) as (-> & _ & ->).
  split; [|reflexivity]. destruct e, f; cbn in *. f_equal; eauto using decimal_fun.
Qed.

(** ** The property *)
(** The name of a connection tells its end points: different connections have different
    names. *)
Theorem C104_names_differ : forall l r l' r' t, connection_text l r t -> connection_text l' r' t -> l = l' /\ r = r'.
Proof.
  intros l r l' r' t (a & b & A & B & E) (a' & b' & A' & B' & E'). rewrite E' in E. apply app_inv_head in E. cbn [app] in E.
  destruct (endpoint_unique _ _ _ _ _ _ A' A E) as (-> & ->). split; [reflexivity|]. eauto using endpoint_unique_end.
Qed.
Print Assumptions C104_names_differ.

(** A connection of IPv4 that the program accepts is recorded as a source with that name,
    for the descriptor the program gets; the program gets what accept returns, without a
    label.  [api_run] with one more call says that everything proved about opened files
    (C23 to C30, C54) holds of what is then read from the connection. *)
Theorem C104_accepted : forall base h r s p g1 g2 ret l rm pad pad' size v lab p',
  api_run base h r s -> p_tdag p = Live r -> endpoint_ok l -> endpoint_ok rm -> length pad = 8%nat -> length pad' = 8%nat ->
  (0 <= ret < 2 ^ 31)%Z -> (forall n, size = Some n -> n < 2 ^ 64 - 1) ->
  w_accept p g1 g2 ret (Some (sockaddr l pad)) (Some (sockaddr rm pad')) size = Ok (v, lab, p') ->
  exists t r', connection_text l rm t /\ v = ret /\ lab = 0 /\ p_tdag p' = Live r' /\
    (within_limits (astep s (COpen ret t size) RNone) ->
     api_run base (h ++ [(COpen ret t size, RNone)]) r' (astep s (COpen ret t size) RNone)).
Proof.
  intros base h r s p g1 g2 ret l rm pad pad' size v lab p' R Lv Ol Or Lp Lp' Rg Sz E.
  unfold w_accept, w_socket in E. destruct (Z.leb_spec 0 ret) as [_|]; [|lia]. rewrite name_of in E by assumption. cbn [bind] in E.
  unfold get_tdag in E. rewrite Lv in E. cbn [bind] in E.
  destruct (rt_open r ret _ size) as [r'| | |] eqn:O; try discriminate. cbn [bind] in E. injection E as <- <- <-.
  destruct (text_of_ok l Ol) as (T1 & N1 & B1), (text_of_ok rm Or) as (T2 & N2 & B2).
  eexists _, r'. split; [exists (text_of l), (text_of rm); split; [exact T1|split; [exact T2|reflexivity]]|].
  split; [reflexivity|]. split; [reflexivity|]. split; [reflexivity|].
  intros W. refine (ar_call base h r s _ RNone r' R _ (as_open r ret _ size r' O) I W).
  split; [lia|]. split; [|exact Sz]. split.
  - unfold is_bytes. rewrite !Forall_app. repeat match goal with |- _ /\ _ => split end; try assumption; repeat (constructor; [lia|]); constructor.
  - rewrite !len_app. unfold len. cbn [length]. lia.
Qed.
Print Assumptions C104_accepted.

(** The same for connections the program makes; the source is that of the socket. *)
Theorem C104_connected : forall base h r s p g1 g2 fd l rm pad pad' size v lab p',
  api_run base h r s -> p_tdag p = Live r -> endpoint_ok l -> endpoint_ok rm -> length pad = 8%nat -> length pad' = 8%nat ->
  (0 <= fd < 2 ^ 31)%Z -> (forall n, size = Some n -> n < 2 ^ 64 - 1) ->
  w_connect p g1 g2 fd 0 (Some (sockaddr l pad)) (Some (sockaddr rm pad')) size = Ok (v, lab, p') ->
  exists t r', connection_text l rm t /\ v = 0%Z /\ lab = 0 /\ p_tdag p' = Live r' /\
    (within_limits (astep s (COpen fd t size) RNone) ->
     api_run base (h ++ [(COpen fd t size, RNone)]) r' (astep s (COpen fd t size) RNone)).
Proof.
  intros base h r s p g1 g2 fd l rm pad pad' size v lab p' R Lv Ol Or Lp Lp' Rg Sz E.
  assert (E' : w_accept p g1 g2 fd (Some (sockaddr l pad)) (Some (sockaddr rm pad')) size = Ok (fd, lab, p') /\ v = 0%Z).
  { unfold w_accept. unfold w_connect, w_socket in *. destruct (Z.leb_spec 0 fd) as [_|]; [|lia]. cbn [Z.eqb] in E.
    destruct (connect_name _ _ _ _) as [o| | |]; try discriminate. cbn [bind] in *. destruct o.
    - destruct (get_tdag p) as [q| | |]; try discriminate. cbn [bind] in *. destruct (rt_open q fd l0 size); try discriminate. cbn [bind] in *. injection E as <- <- <-. auto.
    - cbn [bind] in *. injection E as <- <- <-. auto. }
  destruct E' as (E' & ->).
  destruct (C104_accepted base h r s p g1 g2 fd l rm pad pad' size fd lab p' R Lv Ol Or Lp Lp' Rg Sz E') as (t & r' & A & _ & B).
  exists t, r'. tauto.
Qed.
Print Assumptions C104_connected.

(** As long as the kernel tells both addresses, the call goes through if registering a file
    of the same name does: the name itself stops nothing. *)
Theorem C104_goes_through : forall p r g1 g2 ret l rm pad pad' size,
  p_tdag p = Live r -> endpoint_ok l -> endpoint_ok rm -> length pad = 8%nat -> length pad' = 8%nat -> (0 <= ret)%Z ->
  (forall t, connection_text l rm t -> exists r', rt_open r ret t size = Ok r') ->
  exists p', w_accept p g1 g2 ret (Some (sockaddr l pad)) (Some (sockaddr rm pad')) size = Ok (ret, 0, p') /\
             w_connect p g1 g2 ret 0 (Some (sockaddr l pad)) (Some (sockaddr rm pad')) size = Ok (0%Z, 0, p').
Proof.
  intros p r g1 g2 ret l rm pad pad' size Lv Ol Or Lp Lp' Rg O.
  destruct (text_of_ok l Ol) as (T1 & _), (text_of_ok rm Or) as (T2 & _).
  destruct (O ([115; 111; 99; 107; 101; 116; 58] ++ text_of l ++ [45] ++ text_of rm)) as (r' & E).
  { exists (text_of l), (text_of rm). auto. }
  exists (set_rt p r'). unfold w_accept, w_connect, w_socket. destruct (Z.leb_spec 0 ret) as [_|]; [|lia]. cbn [Z.eqb].
  rewrite !name_of by assumption. cbn [bind]. unfold get_tdag. rewrite Lv. cbn [bind]. rewrite E. cbn [bind]. auto.
Qed.
Print Assumptions C104_goes_through.

(** Calls that fail, and connections of other families (IPv6, Unix), leave the record as it
    is, whatever their addresses are. *)
Theorem C104_failed : forall p g1 g2 fd ret s peer size, (ret < 0)%Z ->
  w_accept p g1 g2 ret s peer size = Ok (ret, 0, p) /\ w_connect p g1 g2 fd ret s peer size = Ok (ret, 0, p).
Proof.
  intros. unfold w_accept, w_connect, w_socket. destruct (Z.leb_spec 0 ret); [lia|]. destruct (Z.eqb_spec ret 0); [lia|]. split; reflexivity.
Qed.
Print Assumptions C104_failed.

Theorem C104_other_family : forall p g1 g2 fd ret a f peer size, has_family a f -> f <> 2 ->
  w_accept p g1 g2 ret (Some a) peer size = Ok (ret, 0, p) /\ w_connect p g1 g2 fd ret (Some a) peer size = Ok (ret, 0, p).
Proof.
  intros p g1 g2 fd ret a f peer size (lo & hi & rest & -> & <-) N.
  assert (E : connect_name g1 g2 (Some (lo :: hi :: rest)) peer = Ok None).
  { unfold connect_name, copy_address, sockaddr_size, sin_family. cbn [firstn app le_val].
    replace (lo + two8 * (hi + two8 * 0)) with (lo + 256 * hi) by (unfold two8; lia).
    unfold AF_INET. destruct (N.eqb_spec (lo + 256 * hi) 2); [contradiction|reflexivity]. }
  unfold w_accept, w_connect, w_socket. rewrite E. cbn [bind]. destruct (0 <=? ret)%Z, (ret =? 0)%Z; split; reflexivity.
Qed.
Print Assumptions C104_other_family.

(** A call that succeeds can end the program: when the peer is gone before its address is
    asked for (accept), or when the call dissolves the association of a datagram socket
    (connect with AF_UNSPEC), getpeername fails; and so it does if getsockname fails. *)
Theorem C104_never_ends_the_program_refuted : forall p g1 g2 ret l pad size, endpoint_ok l -> length pad = 8%nat -> (0 <= ret)%Z ->
  w_accept p g1 g2 ret (Some (sockaddr l pad)) None size = Exit /\
  w_connect p g1 g2 ret 0 (Some (sockaddr l pad)) None size = Exit /\
  (forall peer, w_accept p g1 g2 ret None peer size = Exit /\ w_connect p g1 g2 ret 0 None peer size = Exit).
Proof.
  intros p g1 g2 ret l pad size Ol L Rg. unfold w_accept, w_connect, w_socket. destruct (Z.leb_spec 0 ret) as [_|]; [|lia].
  repeat split; reflexivity.
Qed.
Print Assumptions C104_never_ends_the_program_refuted.

(** Non-vacuity: a run in which a connection from 10.0.0.7:51234 to 192.168.1.20:80 is
    accepted as descriptor 5. *)
Definition web : endpoint := mkEnd 192 168 1 20 80.
Definition client : endpoint := mkEnd 10 0 0 7 51234.
Example C104_case : endpoint_ok web /\ endpoint_ok client /\
  connect_name [] [] (Some (sockaddr web (repeat 0 8))) (Some (sockaddr client (repeat 0 8)))
  = Ok (Some [115; 111; 99; 107; 101; 116; 58; 49; 57; 50; 46; 49; 54; 56; 46; 49; 46; 50; 48; 58; 56; 48; 45;
              49; 48; 46; 48; 46; 48; 46; 55; 58; 53; 49; 50; 51; 52]).
Proof. unfold endpoint_ok. split; [cbn; lia|]. split; [cbn; lia|]. reflexivity. Qed.

(** The run of C104_accepted: a file is open as descriptor 3, then the connection is
    accepted as descriptor 5. *)
Example C104_case_run : exists h r s p', api_run 8192 h r s /\ len h = 1 /\
  w_accept (mkProc true false (Live r)) [] [] 5 (Some (sockaddr web (repeat 0 8))) (Some (sockaddr client (repeat 0 8))) None = Ok (5%Z, 0, p').
Proof.
  destruct (demo_run 8192 [COpen 3 [97] None]
    (fun h r s => match w_accept (mkProc true false (Live r)) [] [] 5 (Some (sockaddr web (repeat 0 8))) (Some (sockaddr client (repeat 0 8))) None with
                  | Ok (v, lab, _) => (v =? 5)%Z && (lab =? 0) && (len h =? 1)
                  | _ => false
                  end)) as (h & r & s & R & C & T).
  - vm_compute. reflexivity.
  - destruct (w_accept _ _ _ _ _ _ _) as [[[v lab] p']| | |] eqn:E; try discriminate.
    apply andb_true_iff in T as [T T3]. apply andb_true_iff in T as [T1 T2]. apply Z.eqb_eq in T1. apply N.eqb_eq in T2, T3. subst v lab.
    exists h, r, s, p'. auto.
Qed.

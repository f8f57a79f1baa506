(** C102: the functions of the library, statement by statement.

    The bodies of Library.v, transcribed from serialization.hpp, tuple.hpp, action.hpp,
    key.hpp, serialized_message.hpp and dispatcher.hpp and run by the interpreter of
    Templates.v, compute what the definitions used by all the other properties say:
    same bytes, same calls of the getter, of the putter and of the callback in the same
    order, same result, same faults. *)

From Coq Require Import List ZArith Bool Arith String Lia ZifyBool ZifyNat.
From Verif Require Import Base CInt IntModel Spec Conditions TypeLevel Serial TupleModel Rpc
  MemFacts SerialProofs Hosts Templates Library LibraryProofs.
From Verif Require Import PropertiesSource.
Import ListNotations.
Open Scope string_scope.
Open Scope list_scope.
Open Scope nat_scope.

(** A function called on an iterator to byte [off]. *)
Lemma run_reader : forall p sz fuel X (src : source X) dest ftor it body R mem off x,
  reader p sz fuel src dest ftor it body R ->
  run_body p sz fuel src dest ftor body [(it, Address 0 off)] mem x
  = (v <- R mem off;; Ok (mem, x, Object v)).
Proof.
  intros p sz fuel X src dest ftor it body R mem off x H. unfold run_body.
  specialize (H (mk_state [] [mem] x) 0 off mem eq_refl). cbn [st_memory st_world] in H. rewrite H.
  destruct (R mem off); reflexivity.
Qed.

(** The same for a function which does not return anything and does not change the
    arrays of its caller. *)
Lemma run_action : forall p sz fuel X (src : source X) dest ftor body args (r : res X) v mem x,
  back (mk_state [] [mem] x) (exec p sz fuel src dest ftor body (mk_state args [mem] x))
    = (x1 <- r;; Ok (mk_state [] [mem] x1, v x1)) ->
  run_body p sz fuel src dest ftor body args mem x = (x1 <- r;; Ok (mem, x1, v x1)).
Proof.
  intros p sz fuel X src dest ftor body args r v mem x H. unfold run_body. rewrite H.
  destruct r; reflexivity.
Qed.

(** serialization.hpp 59-93: [read_as(it)], for a pointer and for another iterator. *)
Theorem C102_read : forall p sz fuel X (src : source X) dest ftor e m k t mem off x,
  host_sizes p sz -> fits sz fuel t -> 8 <= fuel ->
  run_body p sz fuel src dest ftor (snd (read_it e m k t)) [(fst (read_it e m k t), Address 0 off)] mem x
  = (v <- read_at p e m k t mem off;; Ok (mem, x, Object v)).
Proof.
  intros p sz fuel X src dest ftor e m k t mem off x Hh Ht Hf.
  apply (run_reader _ _ _ _ _ _ _ _ _ (fun bs off => read_at p e m k t bs off)). apply it_reader; auto.
Qed.

(** serialization.hpp 127-157: [write_as(value, it)] *)
Theorem C102_write : forall p sz fuel X (src : source X) dest ftor e m k t v mem off x,
  host_sizes p sz -> fits sz fuel t -> 8 <= fuel -> has_type t v ->
  run_body p sz fuel src dest ftor (snd (write_it e m k t))
    [(fst (fst (write_it e m k t)), Object v); (snd (fst (write_it e m k t)), Address 0 off)] mem x
  = (mem' <- write_at p e m k t v mem off;; Ok (mem', x, Nothing)).
Proof.
  intros p sz fuel X src dest ftor e m k t v mem off x Hh Ht Hf Hv. unfold run_body.
  pose proof (it_writer p sz fuel src dest ftor e m Hh k t Ht Hf (mk_state [] [mem] x) v 0 off mem eq_refl Hv) as W.
  cbn [st_memory st_world] in W. rewrite W. destruct (write_at p e m k t v mem off); reflexivity.
Qed.

(** tuple.hpp 131-138: [get<I>()] of a tuple or of a view which begins at [off] *)
Theorem C102_get : forall p sz fuel X (src : source X) dest ftor e m k ts i t mem off x,
  host_sizes p sz -> all_fit sz fuel ts -> 8 <= fuel -> nth_error ts i = Some t ->
  run_body p sz fuel src dest ftor (tuple_get_src e m k ts i t) [("src", Address 0 off)] mem x
  = (v <- get p (mk_view k e m ts off) i mem;; Ok (mem, x, Object v)).
Proof.
  intros p sz fuel X src dest ftor e m k ts i t mem off x Hh (Hts & _ & Hz) Hf Hi.
  apply (run_reader _ _ _ _ _ _ _ _ _ (fun bs off => get p (mk_view k e m ts off) i bs)).
  apply tuple_get_reader; auto.
Qed.

(** tuple.hpp 144-151: [set<I>(value)] *)
Theorem C102_set : forall p sz fuel X (src : source X) dest ftor e m k ts i t v mem off x,
  host_sizes p sz -> all_fit sz fuel ts -> 8 <= fuel -> nth_error ts i = Some t -> has_type t v ->
  run_body p sz fuel src dest ftor (tuple_set_src e m k ts i t) [("src", Address 0 off); ("value", Object v)] mem x
  = (mem' <- set p (mk_view k e m ts off) i v mem;; Ok (mem', x, Nothing)).
Proof.
  intros p sz fuel X src dest ftor e m k ts i t v mem off x Hh (Hts & _ & Hz) Hf Hi Hv. unfold run_body.
  pose proof (tuple_set_setter p sz fuel src dest ftor e m Hh k ts i t Hts Hz Hf Hi (mk_state [] [mem] x) v 0 off mem eq_refl Hv) as W.
  cbn [st_memory st_world] in W. rewrite W. destruct (set p (mk_view k e m ts off) i v mem); reflexivity.
Qed.

(** tuple.hpp 168-172: [lay(args...)] *)
Theorem C102_lay : forall p sz fuel X (src : source X) dest ftor e m k ts vs mem off x,
  host_sizes p sz -> all_fit sz fuel ts -> 8 <= fuel -> Forall2 has_type ts vs ->
  run_body p sz fuel src dest ftor (lay_src e m k ts) [("src", Address 0 off); ("args", Object (VList vs))] mem x
  = (mem' <- lay p (mk_view k e m ts off) (make_index_sequence14 (List.length ts)) vs mem;; Ok (mem', x, Nothing)).
Proof.
  intros p sz fuel X src dest ftor e m k ts vs mem off x Hh (Hts & _ & Hz) Hf Hvs. unfold run_body, lay_src, make_index_sequence14.
  rewrite (sets_ok p sz fuel src dest ftor e m Hh k ts vs 0 off Hts Hz Hf Hvs ts 0 _ mem) by reflexivity. cbn [skipn].
  destruct (lay _ _ _ _ _); reflexivity.
Qed.

(** tuple.hpp 160-163, 182-185: [invoke(ftor)] *)
Theorem C102_invoke : forall p sz fuel X (src : source X) dest ftor e m k ts mem off x,
  host_sizes p sz -> all_fit sz fuel ts -> 8 <= fuel ->
  run_body p sz fuel src dest ftor (invoke_src e m k ts) [("src", Address 0 off)] mem x
  = ('(x', v) <- invoke p (mk_view k e m ts off) ftor mem x;; Ok (mem, x', Object v)).
Proof.
  intros p sz fuel X src dest ftor e m k ts mem off x Hh (Hts & _ & Hz) Hf. unfold run_body, invoke_src, invoke, make_index_sequence14.
  cbn [v_types]. rewrite ex_return, ev_functor.
  rewrite (gets_ok p sz fuel src dest ftor e m Hh k ts _ _ 0 off mem Hts Hz Hf (ev_var p sz fuel src dest ftor "src" (mk_state [("src", Address 0 off)] [mem] x) (Address 0 off) eq_refl) eq_refl ts 0 eq_refl).
  destruct (get_each _ _ _ _) as [vs|f]; cbn [bind]; [|reflexivity]. cbn [st_world].
  destruct (ftor vs x) as [x' v]. reflexivity.
Qed.

(** action.hpp 53-69: [call(input, output, ftor)] *)
Theorem C102_call : forall p sz fuel X (src : source X) dest ftor e m s mem x,
  host_sizes p sz -> sig_fits sz fuel ftor s -> 8 <= fuel ->
  run_body p sz fuel src dest ftor (call_src e m s) [] mem x
  = (x' <- call p e m (mk_func s ftor) src dest x;; Ok (mem, x', Nothing)).
Proof.
  intros p sz fuel X src dest ftor e m s mem x Hh Hs Hf.
  apply (run_action p sz fuel X src dest ftor _ _ _ (fun _ => Nothing)).
  exact (call_ok p sz fuel src dest ftor e m Hh s (mk_state [] [mem] x) x Hs Hf).
Qed.

(** action.hpp 122-141: [static_storage_duration_callback_wrapper] *)
Theorem C102_static : forall p sz fuel X (src : source X) dest ftor e m s mem x,
  host_sizes p sz -> sig_fits sz fuel ftor s -> 8 <= fuel ->
  run_body p sz fuel src dest ftor (static_wrapper_src e m s) [] mem x
  = (x' <- static_wrapper p e m (mk_func s ftor) src dest x;; Ok (mem, x', Nothing)).
Proof.
  intros p sz fuel X src dest ftor e m s mem x Hh Hs Hf.
  apply (run_action p sz fuel X src dest ftor _ _ _ (fun _ => Nothing)).
  exact (static_wrapper_ok p sz fuel src dest ftor e m Hh s (mk_state [] [mem] x) x Hs Hf).
Qed.

(** key.hpp 108-111 and serialized_message.hpp 31-36: [k(args...).write_to(dest)] *)
Theorem C102_key_write : forall p sz fuel X (src : source X) dest ftor k args mem x,
  host_sizes p sz -> all_fit sz fuel (TUns (k_index_size k) :: sig_params (k_sig k)) -> 8 <= fuel ->
  (Z.of_nat (k_index k) < space (k_index_size k))%Z -> Forall2 has_type (sig_params (k_sig k)) args ->
  run_body p sz fuel src dest ftor (key_write_src (k_e k) (k_m k) (k_index_size k) (k_index k) (sig_params (k_sig k)))
    [("args", Object (VList args))] mem x
  = (x' <- key_write p k args dest x;; Ok (mem, x', Nothing)).
Proof.
  intros p sz fuel X src dest ftor k args mem x Hh Hts Hf Hi Hargs.
  apply (run_action p sz fuel X src dest ftor _ _ _ (fun _ => Nothing)).
  exact (key_write_ok p sz fuel src dest ftor (k_e k) (k_m k) Hh k args (mk_state [] [mem] x) x eq_refl eq_refl Hf Hts Hi Hargs).
Qed.

(** key.hpp 121-131: [k.read_from(src)] *)
Theorem C102_key_read : forall p sz fuel X (src : source X) dest ftor k mem x,
  host_sizes p sz -> 8 <= fuel -> match sig_ret (k_sig k) with None => True | Some t => all_fit sz fuel [t] end ->
  run_body p sz fuel src dest ftor (key_read_src (k_e k) (k_m k) (sig_ret (k_sig k))) [] mem x
  = ('(x', v) <- key_read p k src x;; Ok (mem, x', match v with None => Nothing | Some v => Object v end)).
Proof.
  intros p sz fuel X src dest ftor k mem x Hh Hf Ht. unfold run_body.
  pose proof (key_read_ok p sz fuel src dest ftor (k_e k) (k_m k) Hh k (mk_state [] [mem] x) [] x eq_refl eq_refl Hf Ht) as R.
  cbn [st_memory st_locals] in R. rewrite R. destruct (key_read p k src x) as [[x' [v|]]|f]; reflexivity.
Qed.

(** dispatcher.hpp 141-149: [get_index(src)] *)
Theorem C102_index : forall p sz fuel X (src : source X) dest ftor d mem x,
  host_sizes p sz -> 8 <= fuel -> all_fit sz fuel [TUns (kr_index_size (d_keyring d))] ->
  ('(mem', x', v) <- run_body p sz fuel src dest ftor
       (get_index_src (kr_e (d_keyring d)) (kr_m (d_keyring d)) (kr_index_size (d_keyring d))) [] mem x;;
   match v with Object (VInt z) => Ok (mem', x', Z.to_nat z) | _ => Fault TypeMismatch end)
  = ('(x', i) <- get_index p d src x;; Ok (mem, x', i)).
Proof.
  intros p sz fuel X src dest ftor d mem x Hh Hf Ht. unfold run_body, get_index_src, get_index.
  pose proof (read_one p sz fuel src dest ftor (kr_e (d_keyring d)) (kr_m (d_keyring d)) Hh "index_tuple"
                (TUns (kr_index_size (d_keyring d))) (mk_state [] [mem] x) [] x Ht Hf eq_refl eq_refl) as R.
  cbn [st_memory st_locals] in R. rewrite R. rewrite !bind_assoc. apply bind_ext. intros [x1 bs] _.
  rewrite !bind_assoc. apply bind_ext. intros [z|vs] _; reflexivity.
Qed.


(** An AVR, where [std::size_t] has two bytes: an array of objects, read and written
    through a pointer, through another iterator, and as the second element of a view. *)
Definition ex_record : ty := TUser 4 [TBool; TArr (TSig 2) 1].
Definition ex_elements : list ty := [TUns 2; TArr ex_record 2].
Definition ex_values : val := VList [VList [VInt 1; VList [VInt (-2)]]; VList [VInt 0; VList [VInt 300]]].

Lemma ex_record_fits : fits 2 12 (TArr ex_record 2).
Proof.
  unfold fits, ex_record. cbn [wf_ty countable longest sizeof fold_right map list_max Nat.mul Nat.add].
  repeat split; try lia; vm_compute; congruence.
Qed.

Example C102_example :
  let none := @no_source nat in
  let write k mem off := run_body avr_portable 2 12 none no_destination no_functor
        (snd (write_it BIG ONES_COMPLEMENT k (TArr ex_record 2)))
        [(fst (fst (write_it BIG ONES_COMPLEMENT k (TArr ex_record 2))), Object ex_values);
         (snd (fst (write_it BIG ONES_COMPLEMENT k (TArr ex_record 2))), Address 0 off)] mem 0 in
  let bytes := [1; 255; 253; 238; 0; 1; 44; 238]%Z in
  host_sizes avr_portable 2 /\ fits 2 12 (TArr ex_record 2) /\ has_type (TArr ex_record 2) ex_values
  /\ all_fit 2 12 ex_elements
  /\ write Pointer (repeat 238%Z 8) 0 = Ok (bytes, 0, Nothing)
  /\ write Pointer (repeat 238%Z 6) 0 = Fault OutOfBounds
  /\ run_body avr_portable 2 12 none no_destination no_functor
       (tuple_get_src BIG ONES_COMPLEMENT Pointer ex_elements 1 (TArr ex_record 2)) [("src", Address 0 1)]
       ([9; 9; 9] ++ bytes)%Z 0 = Ok (([9; 9; 9] ++ bytes)%Z, 0, Object ex_values)
  /\ run_body avr_portable 2 12 none no_destination no_functor
       (snd (read_it BIG ONES_COMPLEMENT Iterator (TArr ex_record 2)))
       [(fst (read_it BIG ONES_COMPLEMENT Iterator (TArr ex_record 2)), Address 0 3)]
       ([9; 9; 9] ++ bytes)%Z 0 = Ok (([9; 9; 9] ++ bytes)%Z, 0, Object ex_values).
Proof.
  cbv zeta. split; [cbv; lia|]. split; [exact ex_record_fits|]. split.
  { unfold ex_record, ex_values. cbn [has_type List.length]. change (half 2) with 32768%Z. split; [reflexivity|].
    repeat (apply Forall_cons || apply Forall_nil || split || lia). }
  split.
  { split; [|split].
    - unfold ex_elements. constructor; [|constructor; [exact ex_record_fits|constructor]].
      unfold fits. cbn. repeat split; try lia; vm_compute; congruence.
    - vm_compute. lia.
    - vm_compute. reflexivity. }
  repeat (split; [vm_compute; reflexivity|]). vm_compute. reflexivity.
Qed.

(** Bytes to read and bytes written, the last one first. *)
Definition ex_source : source (list Z * list Z) :=
  fun x => match fst x with [] => Fault OutOfBounds | b :: l => Ok ((l, snd x), b) end.
Definition ex_destination : destination (list Z * list Z) := fun b x => Ok (fst x, b :: snd x).
(** The sum of the elements of an array, or minus that sum. *)
Definition ex_sig : signature := mk_sig [TArr (TSig 2) 2; TBool] (Some (TSig 4)).
Definition ex_sum (args : list val) (x : list Z * list Z) : (list Z * list Z) * val :=
  match args with
  | [VList [VInt a; VInt b]; VInt c] => (x, VInt (Z.max (-9) (Z.min 999 (if (c =? 0)%Z then a + b else - (a + b)))))
  | _ => (x, VInt 0)
  end.

Example C102_example_call :
  let run c args x := run_body pc_native 8 12 ex_source ex_destination ex_sum c args [7; 7]%Z x in
  let k := mk_key 2 258 ex_sig LITTLE TWOS_COMPLEMENT in
  host_sizes pc_native 8 /\ sig_fits 8 12 ex_sum ex_sig
  /\ all_fit 8 12 (TUns (k_index_size k) :: sig_params (k_sig k))
  /\ run (call_src LITTLE TWOS_COMPLEMENT ex_sig) [] ([10; 0; 246; 1; 0; 5], [])%Z
     = Ok ([7; 7], ([5], [0; 0; 2; 0]), Nothing)%Z
  /\ run (static_wrapper_src LITTLE TWOS_COMPLEMENT ex_sig) [] ([10; 0; 249; 255; 1; 5], [])%Z
     = Ok ([7; 7], ([5], [255; 255; 255; 253]), Nothing)%Z
  /\ run (call_src LITTLE TWOS_COMPLEMENT ex_sig) [] ([10; 0; 249; 255], [])%Z = Fault OutOfBounds
  /\ run (call_src LITTLE TWOS_COMPLEMENT (mk_sig [] None)) [] ([10; 0], [])%Z = Ok ([7; 7], ([10; 0], []), Nothing)%Z
  /\ run (key_write_src LITTLE TWOS_COMPLEMENT 2 258 (sig_params ex_sig))
       [("args", Object (VList [VList [VInt 10; VInt (-7)]; VInt 1]))] ([], [])%Z
     = Ok ([7; 7], ([], [1; 255; 249; 0; 10; 1; 2]), Nothing)%Z
  /\ run (key_read_src LITTLE TWOS_COMPLEMENT (sig_ret ex_sig)) [] ([253; 255; 255; 255; 4], [])%Z
     = Ok ([7; 7], ([4], []), Object (VInt (-3)))%Z
  /\ run (get_index_src LITTLE TWOS_COMPLEMENT 2) [] ([2; 1; 4], [])%Z
     = Ok ([7; 7], ([4], []), Object (VInt 258))%Z.
Proof.
  cbv zeta. split; [cbv; lia|].
  assert (F : Forall (fits 8 12) [TUns 2; TArr (TSig 2) 2; TBool; TSig 4]).
  { repeat (apply Forall_cons || apply Forall_nil); unfold fits; cbn [wf_ty countable longest sizeof Nat.mul Nat.add];
      repeat split; try lia; vm_compute; congruence. }
  inversion F as [|? ? F1 F']; subst. inversion F' as [|? ? F2 F'']; subst.
  inversion F'' as [|? ? F3 F4]; subst. inversion F4 as [|? ? F5 _]; subst.
  split; [|split].
  - split.
    + split; [repeat constructor; assumption|]. split; [vm_compute; lia|vm_compute; reflexivity].
    + cbn [ex_sig sig_ret]. split.
      * split; [repeat constructor; assumption|]. split; [vm_compute; lia|vm_compute; reflexivity].
      * intros args x.
        assert (H : exists z, snd (ex_sum args x) = VInt z /\ (-9 <= z <= 999)%Z).
        { unfold ex_sum. repeat match goal with |- context [match ?v with _ => _ end] => is_var v; destruct v end;
            cbn [snd]; eexists; (split; [reflexivity|lia]). }
        destruct H as (z & -> & Hz). cbn [has_type]. change (half 4) with 2147483648%Z. lia.
  - split; [repeat constructor; assumption|]. split; [vm_compute; lia|vm_compute; reflexivity].
  - repeat (split; [vm_compute; reflexivity|]). vm_compute. reflexivity.
Qed.

(** [std::next] takes a signed distance: on an AVR, an element which begins more than
    32767 bytes after the beginning of a view is not found, although [std::size_t] can
    count these bytes. *)
Example C102_example_distance :
  let ts := [TArr (TUns 1) (Z.to_nat 40000); TUns 1] in
  let mem := repeat 5%Z (Z.to_nat 40001) in
  (Z.of_nat (tuple_size ts) <? space 2)%Z = true
  /\ get avr_portable (mk_view Pointer LITTLE TWOS_COMPLEMENT ts 0) 1 mem = Ok (VInt 5)
  /\ match run_body avr_portable 2 8 (@no_source nat) no_destination no_functor
            (tuple_get_src LITTLE TWOS_COMPLEMENT Pointer ts 1 (TUns 1)) [("src", Address 0 0)] mem 0 with
     | Ok _ => false
     | Fault f => match f with OutOfBounds => true | _ => false end
     end = true.
Proof. cbv zeta. repeat (split; [vm_compute; reflexivity|]). vm_compute. reflexivity. Qed.

Print Assumptions C102_read.
Print Assumptions C102_write.
Print Assumptions C102_get.
Print Assumptions C102_set.
Print Assumptions C102_lay.
Print Assumptions C102_invoke.
Print Assumptions C102_call.
Print Assumptions C102_static.
Print Assumptions C102_key_write.
Print Assumptions C102_key_read.
Print Assumptions C102_index.

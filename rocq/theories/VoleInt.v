(** Model of /repo/distributed_vector_ole/distributed_vector_ole.h on top of
    MpfssInt.v: the functions of VoleModel.v that run multi-point functions,
    directly or not, with those whose loops have int bounds. *)
From Verif Require Import Base ScalarModel ProcModel RngModel CuckooModel GilboaModel MpfssModel VoleModel MpfssInt VoleSpec.
From Coq Require Import QArith.
Local Open Scope Z_scope.

Section VoleInt.
  Variable S : scalar.
  Local Notation "'m!' x ':=' p 'in' k" := (mbind p (fun x => k))
    (at level 200, x pattern, p at level 100, k at level 200, right associativity).
  Local Notation "'run!' p 'in' k" := (mbind p (fun _ => k))
    (at level 200, p at level 100, k at level 200, right associativity).

  Variable E : setting.
  Local Notation aes := (e_aes E).
  Local Notation clog := (e_clog E).
  Local Notation too_many_bits := (e_too_many_bits E).
  Local Notation expansion3 := (e_expansion3 E).
  Local Notation expansion2 := (e_expansion2 E).
  Variable M : machine S.

  (** distributed_vector_ole.h:420-473 *)
  Definition expand_sender_int (output_size new_vole_seed_size new_mpfss_seed_size : Z) : member S unit :=
    m! s := mget v_s in
    m! rows := mget v_rows in
    m! columns := mget v_columns in
    m! num := mget v_num_noise in
    let seed := s_vole_seed s in
    if negb (zlen (sr_u seed) =? zlen (sr_v seed))
    then mfail (internal_error "Both seeds must have the same size") else
    if negb (rows =? zlen (sr_u seed)) || negb (zlen columns =? output_size)
    then mfail (internal_error "Code generator has the wrong dimensions") else
    m! blocks := mproc (rand_blocks 2 (fun bs => Ret (Ok bs))) in
    m! g := mcalc (rng_create (List.concat (map block_bytes blocks)) num) in
    m! set := mcalc (sample_indices S M (c_patience M) output_size num g []) in
    m! indices := mproc (Rand (fun chance _ => Ret (Ok (c_order M chance set)))) in
    if num <? 0 then mcalc (UB "Eigen: negative size") else
    m! y := mproc (rand_scalars (Z.to_nat num) (fun y => Ret (Ok y))) in
    let v0 := zrepeat (s_zero S) output_size in
    m! v0 := mmpfss (fun m =>
      mpfss_index_provider_int S aes clog too_many_bits expansion3 expansion2 (c_split M output_size) m
        y indices (sr_u (s_mpfss_seed s)) (sr_v (s_mpfss_seed s)) v0) in
    m! mu := mcalc (spread S output_size num indices y) in
    let u := vec_add S (encode S columns (sr_u seed)) mu in
    let v := vec_sub S (encode S columns (sr_v seed)) v0 in
    run! mset (fun st => set_s S (log_s S (combine u v) (pairs seed ++ pairs (s_mpfss_seed s))
                        (set_s_cached S (SenderResult (sr_u (s_cached (v_s st)) ++ u) (sr_v (s_cached (v_s st)) ++ v)) (v_s st))) st) in
    run! new_sender_seeds S new_vole_seed_size new_mpfss_seed_size in
    run! mset (set_vole_seed_size S new_vole_seed_size) in
    mset (set_mpfss_seed_size S new_mpfss_seed_size).
  (** distributed_vector_ole.h:475-503 *)
  Definition expand_receiver_int (output_size new_vole_seed_size new_mpfss_seed_size : Z) : member S unit :=
    m! r := mget v_r in
    m! rows := mget v_rows in
    m! columns := mget v_columns in
    m! num := mget v_num_noise in
    let seed := r_vole_seed r in
    if negb (rows =? zlen (rr_w seed)) || negb (zlen columns =? output_size)
    then mfail (internal_error "Code generator has the wrong dimensions") else
    let c := r_cached r in
    run! mset (fun st => set_r S (set_r_cached S (ReceiverResult (rr_w c ++ map (c_junk M) (zrange 0 output_size)) (rr_delta c)) (v_r st)) st) in
    let v1 := zrepeat (s_zero S) output_size in
    m! v1 := mmpfss (fun m =>
      mpfss_value_provider_int S aes clog (vole_K E) too_many_bits expansion3 expansion2 (c_split M output_size) m
        (rr_delta (r_mpfss_seed r)) num (rr_w (r_mpfss_seed r)) v1) in
    let w := vec_add S (encode S columns (rr_w seed)) v1 in
    run! mset (fun st => set_r S (log_r S w (rr_w seed ++ rr_w (r_mpfss_seed r))
                        (set_r_cached S (ReceiverResult (rr_w c ++ w) (rr_delta c)) (v_r st))) st) in
    run! new_receiver_seeds S new_vole_seed_size new_mpfss_seed_size in
    run! mset (set_vole_seed_size S new_vole_seed_size) in
    mset (set_mpfss_seed_size S new_mpfss_seed_size).

  (** distributed_vector_ole.h:237-298 *)
  Definition precompute_sender_int (batch_size : Z) : member S unit :=
    if batch_size <? 1 then mfail (invalid_argument "`batch_size` must be positive") else
    m! size := precompute_sizes S E in
    run! sender_first_seed S E size in
    m! vs := mget v_vole_seed_size in
    m! ms := mget v_mpfss_seed_size in
    run! new_sender_seeds S vs ms in
    run! bootstrap S E M expand_sender_int batch_size (levels E) in
    run! precompute_last S E M batch_size in
    mset (fun st => set_s S (set_s_done S (v_s st)) st).
  (** distributed_vector_ole.h:300-359 *)
  Definition precompute_receiver_int (batch_size : Z) (delta : S) : member S unit :=
    if batch_size <? 1 then mfail (invalid_argument "`batch_size` must be positive") else
    m! size := precompute_sizes S E in
    run! receiver_first_seed S E M size delta in
    m! vs := mget v_vole_seed_size in
    m! ms := mget v_mpfss_seed_size in
    run! new_receiver_seeds S vs ms in
    run! bootstrap S E M expand_receiver_int batch_size (levels E) in
    run! precompute_last S E M batch_size in
    mset (fun st => set_r S (set_r_done S (v_r st)) st).
  (** distributed_vector_ole.h:78-82 *)
  Definition precompute_receiver_random_int (batch_size : Z) : member S unit :=
    m! delta := mproc (Rand (fun _ delta => Ret (Ok delta))) in
    precompute_receiver_int batch_size delta.

  (** distributed_vector_ole.h:559-580 *)
  Fixpoint run_sender_loop_int (rounds : nat) (size : Z) (u v : list S) : member S (sender_result S) :=
    if size <=? zlen u then mret (SenderResult u v) else
    match rounds with
    | O => mcalc (UB "endless loop")
    | Datatypes.S rounds =>
        m! s := mget v_s in
        let c := s_cached s in
        m! copied := (if zlen u + zlen (sr_u c) <=? size
                      then run! mset (fun st => set_s S (set_s_cached S (SenderResult [] []) (v_s st)) st) in mret c
                      else get_sender_cached S (size - zlen u)) in
        let u := u ++ sr_u copied in
        let v := v ++ sr_v copied in
        if zlen u <? size then
          run! expand S expand_sender_int in
          run_sender_loop_int rounds size u v
        else run_sender_loop_int rounds size u v
    end.
  (** distributed_vector_ole.h:537-583 *)
  Definition run_sender_int (size : Z) : member S (sender_result S) :=
    m! s := mget v_s in
    run! (if s_done s then mret tt else precompute_sender_int size) in
    fun st => pbind (get_sender_cached S size st) (fun '(st, r) =>
      match r with
      | Ok result => Ret (st, Ok result)
      | Err _ => run_sender_loop_int (Z.to_nat size + 1) size [] [] st
      | UB w => Ret (st, UB w)
      end).
  (** distributed_vector_ole.h:607-626 *)
  Fixpoint run_receiver_loop_int (rounds : nat) (size : Z) (w : list S) (delta : S) : member S (receiver_result S) :=
    if size <=? zlen w then mret (ReceiverResult w delta) else
    match rounds with
    | O => mcalc (UB "endless loop")
    | Datatypes.S rounds =>
        m! r := mget v_r in
        let c := r_cached r in
        m! copied := (if zlen w + zlen (rr_w c) <=? size
                      then run! mset (fun st => set_r S (set_r_cached S (ReceiverResult [] (rr_delta c)) (v_r st)) st) in mret c
                      else get_receiver_cached S (size - zlen w)) in
        let w := w ++ rr_w copied in
        if zlen w <? size then
          run! expand S expand_receiver_int in
          run_receiver_loop_int rounds size w delta
        else run_receiver_loop_int rounds size w delta
    end.
  (** distributed_vector_ole.h:585-629 *)
  Definition run_receiver_int (size : Z) : member S (receiver_result S) :=
    m! r := mget v_r in
    run! (if r_done r then mret tt else precompute_receiver_random_int size) in
    fun st => pbind (get_receiver_cached S size st) (fun '(st, r) =>
      match r with
      | Ok result => Ret (st, Ok result)
      | Err _ => run_receiver_loop_int (Z.to_nat size + 1) size [] (rr_delta (r_cached (v_r st))) st
      | UB w => Ret (st, UB w)
      end).
End VoleInt.

(** [as_sender], [as_receiver], [calls] and [party] of VoleSpec.v with these
    functions. *)
Section User.
  Variable S : scalar.
  Variable E : setting.

  Definition as_sender_int (M : machine S) (c : call S) (st : vole S) : proc S (vole S * res (answer S)) :=
    match c with
    | Precompute b _ => pbind (precompute_sender_int S E M b st) (fun '(st, r) => Ret (st, rmap (fun _ => Precomputed) r))
    | Run n => pbind (run_sender_int S E M n st) (fun '(st, r) => Ret (st, rmap (fun x => Sender (sr_u x) (sr_v x)) r))
    end.
  Definition as_receiver_int (M : machine S) (c : call S) (st : vole S) : proc S (vole S * res (answer S)) :=
    match c with
    | Precompute b (Some delta) =>
        pbind (precompute_receiver_int S E M b delta st) (fun '(st, r) => Ret (st, rmap (fun _ => Precomputed) r))
    | Precompute b None =>
        pbind (precompute_receiver_random_int S E M b st) (fun '(st, r) => Ret (st, rmap (fun _ => Precomputed) r))
    | Run n => pbind (run_receiver_int S E M n st) (fun '(st, r) => Ret (st, rmap (fun x => Receiver (rr_w x) (rr_delta x)) r))
    end.

  Fixpoint calls_int (M : machine S) (go_on : status -> bool) (l : list (bool * call S)) (st : vole S)
    : proc S (list (res (answer S))) :=
    match l with
    | [] => Ret []
    | (sends, c) :: l =>
        pbind ((if sends : bool then as_sender_int else as_receiver_int) M c st) (fun '(st, r) =>
          let continue := pbind (calls_int M go_on l st) (fun rs => Ret (r :: rs)) in
          match r with
          | Ok _ => continue
          | Err e => if go_on e then continue else Ret [r]
          | UB _ => Ret [r]
          end)
    end.

  Definition party_int (M : machine S) (go_on : status -> bool) (l : list (bool * call S)) : proc S (res (list (res (answer S)))) :=
    pbindr (vole_create S M false) (fun st => pbind (calls_int M go_on l st) (fun rs => Ret (Ok rs))).
End User.

(** Model of /repo/distributed_vector_ole/distributed_vector_ole.h and .cpp.

    Every member function takes the object's state and returns its new state
    next to the result, since a failing call can leave a modified object behind.

    Not modelled: failures of memory allocation, the OpenMP initialisation of
    NTL's modulus in Create (distributed_vector_ole.h:219-224), and the numbers
    in the error messages of GetSenderCached/GetReceiverCached. *)
From Verif Require Import Base ScalarModel ProcModel RotModel GilboaModel RngModel CuckooModel MpfssModel.
From Coq Require Import QArith.
Local Open Scope Z_scope.

(** distributed_vector_ole.h:36-45 *)
Record vole_parameters := VoleParameters {
  p_output_size : list Z;
  p_seed_size : list Z;
  p_num_noise : list Z;
  p_nonzeros : Z
}.
(** distributed_vector_ole.cpp:5-8 *)
Definition library_parameters : vole_parameters :=
  VoleParameters [4096; 16384; 65536; 616092; 10616092]
                 [1589; 3482; 7391; 37248; 588160]
                 [98; 198; 382; 1254; 1324]
                 10.

(** What both parties have in common. *)
Record setting := Setting {
  e_parameters : vole_parameters;
  (* AES *)
  e_aes : N -> N -> N;
  (* levels of a tree, as in RotModel.v *)
  e_clog : Z -> Z -> nat;
  (* 2^statistical_security as given by the user of Create *)
  e_K : Q;
  (* as in CuckooModel.v, for the security that Create passes on *)
  e_too_many_bits : Z -> Z -> bool;
  e_expansion3 : Z -> Z;
  e_expansion2 : Z -> Z;
  (* std::uniform_int_distribution<int>(0, n - 1) of the standard library *)
  e_uniform : Z -> rng -> res (rng * Z);
  (* whether the compiler evaluates the first argument of
     MakeUint128(rng(), rng()) first *)
  e_high_first : bool
}.

(** Arithmetic in int64_t: overflow is undefined. *)
Definition int64_result (z : Z) : res Z :=
  if (- 2^63 <=? z) && (z <? 2^63) then Ok z else UB "signed overflow of int64_t".

(** The bytes of a random 128-bit block. *)
Definition block_bytes (x : N) : list N :=
  map (fun i => ((x / 2 ^ (8 * N.of_nat i)) mod 256)%N) (seq 0 16).

(** v.tail(n) and what conservativeResize(v.size() - n) leaves. *)
Definition tail {A} (n : Z) (l : list A) : list A := skipn (Z.to_nat (zlen l - n)) l.
Definition shrink {A} (n : Z) (l : list A) : list A := firstn (Z.to_nat (zlen l - n)) l.

Section Vole.
  Variable S : scalar.

  (** distributed_vector_ole.h:55-63 *)
  Record sender_result := SenderResult { sr_u : list S; sr_v : list S }.
  Record receiver_result := ReceiverResult { rr_w : list S; rr_delta : S }.

  (** The sender's members of the class (distributed_vector_ole.h:141-148, 176)
      and two logs that the program does not have: the correlations computed so
      far, and those that were used up as the seed of a completed expansion. *)
  Record sender_side := SenderSide {
    s_cached : sender_result;
    s_vole_seed : sender_result;
    s_mpfss_seed : sender_result;
    s_done : bool;
    s_made : list (S * S);
    s_used : list (S * S)
  }.
  (** The receiver's members (distributed_vector_ole.h:150-157, 179) and the
      corresponding logs. *)
  Record receiver_side := ReceiverSide {
    r_cached : receiver_result;
    r_vole_seed : receiver_result;
    r_mpfss_seed : receiver_result;
    r_done : bool;
    r_made : list S;
    r_used : list S
  }.

  (** distributed_vector_ole.h:132-182. The code generator is given by its number
      of rows and, for each column, its entries (row, value). channel_ and
      gilboa_ have no state of their own. *)
  Record vole := Vole {
    v_mpfss : mpfss;
    v_rows : Z;
    v_columns : list (list (Z * S));
    v_batch_size : Z;
    v_vole_seed_size : Z;
    v_mpfss_seed_size : Z;
    v_num_noise : Z;
    v_s : sender_side;
    v_r : receiver_side
  }.

  (** Assignments to members. *)
  Definition set_mpfss m st := Vole m (v_rows st) (v_columns st) (v_batch_size st) (v_vole_seed_size st) (v_mpfss_seed_size st) (v_num_noise st) (v_s st) (v_r st).
  Definition set_generator rows columns st := Vole (v_mpfss st) rows columns (v_batch_size st) (v_vole_seed_size st) (v_mpfss_seed_size st) (v_num_noise st) (v_s st) (v_r st).
  Definition set_batch_size b st := Vole (v_mpfss st) (v_rows st) (v_columns st) b (v_vole_seed_size st) (v_mpfss_seed_size st) (v_num_noise st) (v_s st) (v_r st).
  Definition set_vole_seed_size n st := Vole (v_mpfss st) (v_rows st) (v_columns st) (v_batch_size st) n (v_mpfss_seed_size st) (v_num_noise st) (v_s st) (v_r st).
  Definition set_mpfss_seed_size n st := Vole (v_mpfss st) (v_rows st) (v_columns st) (v_batch_size st) (v_vole_seed_size st) n (v_num_noise st) (v_s st) (v_r st).
  Definition set_num_noise n st := Vole (v_mpfss st) (v_rows st) (v_columns st) (v_batch_size st) (v_vole_seed_size st) (v_mpfss_seed_size st) n (v_s st) (v_r st).
  Definition set_s s st := Vole (v_mpfss st) (v_rows st) (v_columns st) (v_batch_size st) (v_vole_seed_size st) (v_mpfss_seed_size st) (v_num_noise st) s (v_r st).
  Definition set_r r st := Vole (v_mpfss st) (v_rows st) (v_columns st) (v_batch_size st) (v_vole_seed_size st) (v_mpfss_seed_size st) (v_num_noise st) (v_s st) r.
  Definition set_s_cached c s := SenderSide c (s_vole_seed s) (s_mpfss_seed s) (s_done s) (s_made s) (s_used s).
  Definition set_s_vole_seed c s := SenderSide (s_cached s) c (s_mpfss_seed s) (s_done s) (s_made s) (s_used s).
  Definition set_s_mpfss_seed c s := SenderSide (s_cached s) (s_vole_seed s) c (s_done s) (s_made s) (s_used s).
  Definition set_s_done s := SenderSide (s_cached s) (s_vole_seed s) (s_mpfss_seed s) true (s_made s) (s_used s).
  Definition log_s made used s := SenderSide (s_cached s) (s_vole_seed s) (s_mpfss_seed s) (s_done s) (s_made s ++ made) (s_used s ++ used).
  Definition set_r_cached c r := ReceiverSide c (r_vole_seed r) (r_mpfss_seed r) (r_done r) (r_made r) (r_used r).
  Definition set_r_vole_seed c r := ReceiverSide (r_cached r) c (r_mpfss_seed r) (r_done r) (r_made r) (r_used r).
  Definition set_r_mpfss_seed c r := ReceiverSide (r_cached r) (r_vole_seed r) c (r_done r) (r_made r) (r_used r).
  Definition set_r_done r := ReceiverSide (r_cached r) (r_vole_seed r) (r_mpfss_seed r) true (r_made r) (r_used r).
  Definition log_r made used r := ReceiverSide (r_cached r) (r_vole_seed r) (r_mpfss_seed r) (r_done r) (r_made r ++ made) (r_used r ++ used).
  Definition pairs (c : sender_result) : list (S * S) := combine (sr_u c) (sr_v c).

  (** A member function: communicates, may change the state and fail. *)
  Definition member (A : Type) := vole -> proc S (vole * res A).
  Definition mret {A} (a : A) : member A := fun st => Ret (st, Ok a).
  Definition mfail {A} (e : status) : member A := fun st => Ret (st, Err e).
  (** ASSIGN_OR_RETURN and RETURN_IF_ERROR; the state keeps its changes. *)
  Definition mbind {A B} (p : member A) (f : A -> member B) : member B := fun st =>
    pbind (p st) (fun '(st, r) =>
      match r with Ok a => f a st | Err e => Ret (st, Err e) | UB w => Ret (st, UB w) end).
  (** Local computation. *)
  Definition mcalc {A} (m : res A) : member A := fun st => Ret (st, m).
  (** A protocol of another object without state. *)
  Definition mproc {A} (p : proc S (res A)) : member A := fun st => pbind p (fun r => Ret (st, r)).
  Definition mget {A} (f : vole -> A) : member A := fun st => Ret (st, Ok (f st)).
  Definition mset (f : vole -> vole) : member unit := fun st => Ret (f st, Ok tt).
  (** A function of the MPFSS object. *)
  Definition mmpfss {A} (p : mpfss -> proc S (mpfss * res A)) : member A := fun st =>
    pbind (p (v_mpfss st)) (fun '(m, r) => Ret (set_mpfss m st, r)).

  Local Notation "'m!' x ':=' p 'in' k" := (mbind p (fun x => k))
    (at level 200, x pattern, p at level 100, k at level 200, right associativity).
  Local Notation "'run!' p 'in' k" := (mbind p (fun _ => k))
    (at level 200, p at level 100, k at level 200, right associativity).

  Variable E : setting.
  Local Notation P := (e_parameters E).
  Local Notation aes := (e_aes E).
  Local Notation clog := (e_clog E).
  Local Notation too_many_bits := (e_too_many_bits E).
  Local Notation expansion3 := (e_expansion3 E).
  Local Notation expansion2 := (e_expansion2 E).
  Local Notation uniform := (e_uniform E).
  Local Notation high_first := (e_high_first E).
  (** distributed_vector_ole.h:215: log2(3) is added. *)
  Definition vole_K : Q := (e_K E * 3)%Q.

  (** What may differ between the two parties' machines. *)
  Record machine := Machine {
    (* get_id() and get_peer_id() of the channel *)
    c_id : Z;
    c_peer_id : Z;
    (* division of a loop of n iterations among OpenMP threads *)
    c_split : Z -> list Z;
    (* std::uniform_int_distribution<int64_t>(0, n - 1) *)
    c_uniform64 : Z -> rng -> res (rng * Z);
    (* number of tries after which the sampling of indices is considered endless *)
    c_patience : nat;
    (* iteration order of an absl::flat_hash_set, which depends on chance *)
    c_order : N -> list Z -> list Z;
    (* contents of uninitialised memory *)
    c_junk : Z -> S
  }.
  Variable M : machine.

  (** ** Code generator *)

  (** code_generator_.coeffRef(row, col) = value, within one column. *)
  Fixpoint coeff_set (column : list (Z * S)) (row : Z) (value : S) : list (Z * S) :=
    match column with
    | [] => [(row, value)]
    | (r, x) :: rest => if r =? row then (r, value) :: rest else (r, x) :: coeff_set rest row value
    end.

  (** One call of rng(); the exception ends the program. *)
  Definition rng_call (g : rng) : res (rng * N) :=
    let! (g, o) := rng_next aes g in
    match o with Value x => Ok (g, x) | Throw => UB "std::runtime_error" end.

  (** distributed_vector_ole.h:398-399; MakeUint128(high, low). *)
  Definition random_element (g : rng) : res (rng * S) :=
    let! (g, first) := rng_call g in
    let! (g, second) := rng_call g in
    let random128 := if high_first then (2^64 * first + second)%N else (2^64 * second + first)%N in
    Ok (g, s_of128 S random128).

  (** distributed_vector_ole.h:394-400 *)
  Definition random_elements (n : Z) (g : rng) : res (rng * list S) :=
    for_range 0 n (fun _ '(g, l) =>
      let! (g, x) := random_element g in Ok (g, l ++ [x])) (g, []).

  (** distributed_vector_ole.h:409-414, one column. *)
  Definition sample_column (rows : Z) (elements : list S) (col : Z) (g : rng) : res (rng * list (Z * S)) :=
    for_range 0 (p_nonzeros P) (fun i '(g, column) =>
      let! (g, row) := uniform rows g in
      if negb ((0 <=? row) && (row <? rows)) then UB "Eigen: row out of range" else
      let! x := zget elements (col * p_nonzeros P + i) in
      Ok (g, coeff_set column row x)) (g, []).

  (** distributed_vector_ole.h:394-415, the columns from an initialised rng. *)
  Definition sample_generator (rows cols : Z) (g : rng) : res (list (list (Z * S))) :=
    let! (g, elements) := random_elements (p_nonzeros P * cols) g in
    let! (g, columns) := for_range 0 cols (fun col '(g, columns) =>
      let! (g, column) := sample_column rows elements col g in
      Ok (g, columns ++ [column])) (g, []) in
    Ok columns.

  (** distributed_vector_ole.h:373-381 *)
  Definition exchange_seed : proc S (res (list N)) :=
    if c_id M <? c_peer_id M then
      rand_blocks 2 (fun bs =>
      let seed := List.concat (map block_bytes bs) in
      Send (MBytes seed) (Ret (Ok seed)))
    else recv_bytes (fun seed => Ret (Ok seed)).

  (** RETURN_IF_ERROR(mpfss_->UpdateBuckets(...)), distributed_vector_ole.h:365 *)
  Definition m_update_buckets (output_size num_indices : Z) : member unit := fun st =>
    let '(m, r) := update_buckets aes too_many_bits expansion3 expansion2 (c_split M output_size)
                     (v_mpfss st) output_size num_indices in
    Ret (set_mpfss m st, r).

  (** distributed_vector_ole.h:361-418 *)
  Definition precompute_common (output_size : Z) : member unit :=
    m! num_noise := mget v_num_noise in
    run! m_update_buckets output_size num_noise in
    m! rows := mget v_vole_seed_size in
    run! mset (set_generator rows (zrepeat [] output_size)) in
    m! seed := mproc exchange_seed in
    m! g := mcalc (rng_create seed (p_nonzeros P * output_size)) in
    if negb (s_can_hash S (security_per_leaf vole_K (p_nonzeros P * output_size)) 128)
    then mfail (invalid_argument "Cannot sample enough random elements for the code generator with the given statistical security") else
    m! columns := mcalc (sample_generator rows output_size g) in
    mset (set_generator rows columns).

  (** seed * code_generator_ for a row vector [seed] of v_rows elements. *)
  Definition encode (columns : list (list (Z * S))) (seed : list S) : list S :=
    map (fun column => fold_right (s_add S) (s_zero S) (map (fun '(row, x) => s_mul S (znth (s_zero S) seed row) x) column)) columns.

  (** Eigen's element-wise sum and difference, as in distributed_vector_ole.h:462-463. *)
  Definition vec_add (a b : list S) : list S := map (fun '(x, y) => s_add S x y) (combine a b).
  Definition vec_sub (a b : list S) : list S := map (fun '(x, y) => s_sub S x y) (combine a b).

  (** ** Caches *)

  (** distributed_vector_ole.h:505-519 *)
  Definition get_sender_cached (size : Z) : member sender_result := fun st =>
    let c := s_cached (v_s st) in
    if zlen (sr_u c) <? size
    then Ret (st, Err (Status OutOfRange "Requested more sender elements than are cached")) else
    if size <? 0 then Ret (st, UB "Eigen: negative size") else
    Ret (set_s (set_s_cached (SenderResult (shrink size (sr_u c)) (shrink size (sr_v c))) (v_s st)) st,
         Ok (SenderResult (tail size (sr_u c)) (tail size (sr_v c)))).

  (** distributed_vector_ole.h:521-535 *)
  Definition get_receiver_cached (size : Z) : member receiver_result := fun st =>
    let c := r_cached (v_r st) in
    if zlen (rr_w c) <? size
    then Ret (st, Err (Status OutOfRange "Requested more receiver elements than are cached")) else
    if size <? 0 then Ret (st, UB "Eigen: negative size") else
    Ret (set_r (set_r_cached (ReceiverResult (shrink size (rr_w c)) (rr_delta c)) (v_r st)) st,
         Ok (ReceiverResult (tail size (rr_w c)) (rr_delta c))).

  (** ** Expansion *)

  (** distributed_vector_ole.h:442-444 *)
  Fixpoint sample_indices (tries : nat) (output_size num : Z) (g : rng) (set : list Z) : res (list Z) :=
    if num <=? zlen set then Ok set else
    match tries with
    | O => UB "endless sampling"
    | Datatypes.S tries =>
        let! (g, i) := c_uniform64 M output_size g in
        sample_indices tries output_size num g (if existsb (Z.eqb i) set then set else i :: set)
    end.

  (** distributed_vector_ole.h:453-457 *)
  Definition spread (output_size num : Z) (indices : list Z) (y : list S) : res (list S) :=
    for_range 0 num (fun i mu =>
      let! index := zget indices i in
      let! x := zget y i in
      zset mu index x) (zrepeat (s_zero S) output_size).

  (** distributed_vector_ole.h:466-470 and 495-500: new seeds from the cache. *)
  Definition new_sender_seeds (vole_size mpfss_size : Z) : member unit :=
    m! vole_seed := get_sender_cached vole_size in
    run! mset (fun st => set_s (set_s_vole_seed vole_seed (v_s st)) st) in
    m! mpfss_seed := get_sender_cached mpfss_size in
    mset (fun st => set_s (set_s_mpfss_seed mpfss_seed (v_s st)) st).
  Definition new_receiver_seeds (vole_size mpfss_size : Z) : member unit :=
    m! vole_seed := get_receiver_cached vole_size in
    run! mset (fun st => set_r (set_r_vole_seed vole_seed (v_r st)) st) in
    m! mpfss_seed := get_receiver_cached mpfss_size in
    mset (fun st => set_r (set_r_mpfss_seed mpfss_seed (v_r st)) st).

  (** distributed_vector_ole.h:420-473. *)
  Definition expand_sender (output_size new_vole_seed_size new_mpfss_seed_size : Z) : member unit :=
    m! s := mget v_s in
    m! rows := mget v_rows in
    m! columns := mget v_columns in
    m! num := mget v_num_noise in
    let seed := s_vole_seed s in
    if negb (zlen (sr_u seed) =? zlen (sr_v seed))
    then mfail (internal_error "Both seeds must have the same size") else
    if negb (rows =? zlen (sr_u seed)) || negb (zlen columns =? output_size)
    then mfail (internal_error "Code generator has the wrong dimensions") else
    m! blocks := mproc (rand_blocks 2 (fun bs => Ret (Ok bs))) in
    m! g := mcalc (rng_create (List.concat (map block_bytes blocks)) num) in
    m! set := mcalc (sample_indices (c_patience M) output_size num g []) in
    m! indices := mproc (Rand (fun chance _ => Ret (Ok (c_order M chance set)))) in
    if num <? 0 then mcalc (UB "Eigen: negative size") else
    m! y := mproc (rand_scalars (Z.to_nat num) (fun y => Ret (Ok y))) in
    let v0 := zrepeat (s_zero S) output_size in
    m! v0 := mmpfss (fun m =>
      mpfss_index_provider S aes clog too_many_bits expansion3 expansion2 (c_split M output_size) m
        y indices (sr_u (s_mpfss_seed s)) (sr_v (s_mpfss_seed s)) v0) in
    m! mu := mcalc (spread output_size num indices y) in
    let u := vec_add (encode columns (sr_u seed)) mu in
    let v := vec_sub (encode columns (sr_v seed)) v0 in
    run! mset (fun st => set_s (log_s (combine u v) (pairs seed ++ pairs (s_mpfss_seed s))
                        (set_s_cached (SenderResult (sr_u (s_cached (v_s st)) ++ u) (sr_v (s_cached (v_s st)) ++ v)) (v_s st))) st) in
    run! new_sender_seeds new_vole_seed_size new_mpfss_seed_size in
    run! mset (set_vole_seed_size new_vole_seed_size) in
    mset (set_mpfss_seed_size new_mpfss_seed_size).

  (** distributed_vector_ole.h:475-503. The cache is enlarged before the MPFSS
      runs. *)
  Definition expand_receiver (output_size new_vole_seed_size new_mpfss_seed_size : Z) : member unit :=
    m! r := mget v_r in
    m! rows := mget v_rows in
    m! columns := mget v_columns in
    m! num := mget v_num_noise in
    let seed := r_vole_seed r in
    if negb (rows =? zlen (rr_w seed)) || negb (zlen columns =? output_size)
    then mfail (internal_error "Code generator has the wrong dimensions") else
    let c := r_cached r in
    run! mset (fun st => set_r (set_r_cached (ReceiverResult (rr_w c ++ map (c_junk M) (zrange 0 output_size)) (rr_delta c)) (v_r st)) st) in
    let v1 := zrepeat (s_zero S) output_size in
    m! v1 := mmpfss (fun m =>
      mpfss_value_provider S aes clog vole_K too_many_bits expansion3 expansion2 (c_split M output_size) m
        (rr_delta (r_mpfss_seed r)) num (rr_w (r_mpfss_seed r)) v1) in
    let w := vec_add (encode columns (rr_w seed)) v1 in
    run! mset (fun st => set_r (log_r w (rr_w seed ++ rr_w (r_mpfss_seed r))
                        (set_r_cached (ReceiverResult (rr_w c ++ w) (rr_delta c)) (v_r st))) st) in
    run! new_receiver_seeds new_vole_seed_size new_mpfss_seed_size in
    run! mset (set_vole_seed_size new_vole_seed_size) in
    mset (set_mpfss_seed_size new_mpfss_seed_size).

  (** distributed_vector_ole.h:110-113 and 118-121 *)
  Definition full_output : member Z :=
    m! batch := mget v_batch_size in
    m! vs := mget v_vole_seed_size in
    m! ms := mget v_mpfss_seed_size in
    mcalc (int64_result (batch + vs + ms)).
  Definition expand (step : Z -> Z -> Z -> member unit) : member unit :=
    m! output_size := full_output in
    m! vs := mget v_vole_seed_size in
    m! ms := mget v_mpfss_seed_size in
    step output_size vs ms.

  (** ** Precomputation *)

  (** mpfss_->NumBuckets(n) *)
  Definition m_num_buckets (n : Z) : member Z := fun st =>
    Ret (st, num_buckets expansion3 expansion2 (v_mpfss st) n).

  (** distributed_vector_ole.h:240-248 and 303-311, up to the size of w. *)
  Definition precompute_sizes : member Z :=
    run! mset (set_batch_size 0) in
    m! n := mcalc (zget (p_num_noise P) 0) in
    run! mset (set_num_noise n) in
    m! vs := mcalc (zget (p_seed_size P) 0) in
    run! mset (set_vole_seed_size vs) in
    m! ms := m_num_buckets n in
    run! mset (set_mpfss_seed_size ms) in
    m! size := mcalc (int_result (vs + ms)) in
    if size <? 0 then mcalc (UB "Eigen: negative size") else mret size.

  (** distributed_vector_ole.h:247-258 *)
  Definition sender_first_seed (size : Z) : member unit :=
    m! u := mproc (rand_scalars (Z.to_nat size) (fun u => Ret (Ok u))) in
    m! v := mproc (rand_scalars (Z.to_nat size) (fun v => Ret (Ok v))) in
    run! mset (fun st => set_s (log_s (combine u v) [] (set_s_cached (SenderResult u v) (v_s st))) st) in
    m! w := mproc (gilboa_vector_provider S vole_K u (zrepeat (s_zero S) size)) in
    mproc (Send (MVec (vec_add w v)) (Ret (Ok tt))).
  (** distributed_vector_ole.h:311-317. The sum of two vectors of different
      lengths is an assertion. *)
  Definition receiver_first_seed (size : Z) (delta : S) : member unit :=
    run! mset (fun st => set_r (set_r_cached (ReceiverResult (map (c_junk M) (zrange 0 size)) delta) (v_r st)) st) in
    m! w := mproc (gilboa_value_provider S vole_K delta (map (c_junk M) (zrange 0 size))) in
    m! w2 := mproc (recv_vec (fun w2 => Ret (Ok w2))) in
    if negb (zlen w =? zlen w2) then mcalc (UB "Eigen: sizes differ") else
    let w := vec_add w w2 in
    mset (fun st => set_r (log_r w [] (set_r_cached (ReceiverResult w delta) (v_r st))) st).

  (** distributed_vector_ole.h:263-284 and 324-345; [levels]: the remaining
      values of i. *)
  Fixpoint bootstrap (step : Z -> Z -> Z -> member unit) (batch_size : Z) (levels : list Z) : member unit :=
    match levels with
    | [] => mret tt
    | i :: levels =>
        m! out := mcalc (zget (p_output_size P) i) in
        m! vs := mget v_vole_seed_size in
        m! ms := mget v_mpfss_seed_size in
        m! needed := mcalc (int64_result (batch_size + ms + vs)) in
        if needed <=? out then mret tt else
        m! next_vs := mcalc (zget (p_seed_size P) (i + 1)) in
        m! next_noise := mcalc (zget (p_num_noise P) (i + 1)) in
        m! next_ms := m_num_buckets next_noise in
        m! output_size := mcalc (int_result (next_vs + next_ms)) in
        run! precompute_common output_size in
        run! step output_size next_vs next_ms in
        run! mset (set_num_noise next_noise) in
        bootstrap step batch_size levels
    end.

  (** distributed_vector_ole.h:286-296 and 347-357 *)
  Definition precompute_last (batch_size : Z) : member unit :=
    m! last := mcalc (zget (p_output_size P) (zlen (p_output_size P) - 1)) in
    m! vs := mget v_vole_seed_size in
    m! ms := mget v_mpfss_seed_size in
    m! room := mcalc (int_result (last - ms - vs)) in
    run! mset (set_batch_size (Z.min batch_size room)) in
    m! output_size := full_output in
    precompute_common output_size.

  (** The loop over all levels but the last, distributed_vector_ole.h:264 and 324. *)
  Definition levels : list Z := zrange 0 (zlen (p_seed_size P) - 1).

  (** distributed_vector_ole.h:237-298 *)
  Definition precompute_sender (batch_size : Z) : member unit :=
    if batch_size <? 1 then mfail (invalid_argument "`batch_size` must be positive") else
    m! size := precompute_sizes in
    run! sender_first_seed size in
    m! vs := mget v_vole_seed_size in
    m! ms := mget v_mpfss_seed_size in
    run! new_sender_seeds vs ms in
    run! bootstrap expand_sender batch_size levels in
    run! precompute_last batch_size in
    mset (fun st => set_s (set_s_done (v_s st)) st).

  (** distributed_vector_ole.h:300-359 *)
  Definition precompute_receiver (batch_size : Z) (delta : S) : member unit :=
    if batch_size <? 1 then mfail (invalid_argument "`batch_size` must be positive") else
    m! size := precompute_sizes in
    run! receiver_first_seed size delta in
    m! vs := mget v_vole_seed_size in
    m! ms := mget v_mpfss_seed_size in
    run! new_receiver_seeds vs ms in
    run! bootstrap expand_receiver batch_size levels in
    run! precompute_last batch_size in
    mset (fun st => set_r (set_r_done (v_r st)) st).
  (** distributed_vector_ole.h:78-82 *)
  Definition precompute_receiver_random (batch_size : Z) : member unit :=
    m! delta := mproc (Rand (fun _ delta => Ret (Ok delta))) in
    precompute_receiver batch_size delta.

  (** ** Run *)

  (** distributed_vector_ole.h:559-580. [u], [v]: the first num_copied elements of
      the result. [rounds] only bounds the recursion: without progress the
      program would loop for ever. *)
  Fixpoint run_sender_loop (rounds : nat) (size : Z) (u v : list S) : member sender_result :=
    if size <=? zlen u then mret (SenderResult u v) else
    match rounds with
    | O => mcalc (UB "endless loop")
    | Datatypes.S rounds =>
        m! s := mget v_s in
        let c := s_cached s in
        m! copied := (if zlen u + zlen (sr_u c) <=? size
                      then run! mset (fun st => set_s (set_s_cached (SenderResult [] []) (v_s st)) st) in mret c
                      else get_sender_cached (size - zlen u)) in
        let u := u ++ sr_u copied in
        let v := v ++ sr_v copied in
        if zlen u <? size then
          run! expand expand_sender in
          run_sender_loop rounds size u v
        else run_sender_loop rounds size u v
    end.

  (** distributed_vector_ole.h:537-583; for a negative size GetSenderCached does
      not fail, so the resize at :557 is not reached. *)
  Definition run_sender (size : Z) : member sender_result :=
    m! s := mget v_s in
    run! (if s_done s then mret tt else precompute_sender size) in
    fun st => pbind (get_sender_cached size st) (fun '(st, r) =>
      match r with
      | Ok result => Ret (st, Ok result)
      | Err _ => run_sender_loop (Z.to_nat size + 1) size [] [] st
      | UB w => Ret (st, UB w)
      end).

  (** distributed_vector_ole.h:607-626 *)
  Fixpoint run_receiver_loop (rounds : nat) (size : Z) (w : list S) (delta : S) : member receiver_result :=
    if size <=? zlen w then mret (ReceiverResult w delta) else
    match rounds with
    | O => mcalc (UB "endless loop")
    | Datatypes.S rounds =>
        m! r := mget v_r in
        let c := r_cached r in
        m! copied := (if zlen w + zlen (rr_w c) <=? size
                      then run! mset (fun st => set_r (set_r_cached (ReceiverResult [] (rr_delta c)) (v_r st)) st) in mret c
                      else get_receiver_cached (size - zlen w)) in
        let w := w ++ rr_w copied in
        if zlen w <? size then
          run! expand expand_receiver in
          run_receiver_loop rounds size w delta
        else run_receiver_loop rounds size w delta
    end.

  (** distributed_vector_ole.h:585-629 *)
  Definition run_receiver (size : Z) : member receiver_result :=
    m! r := mget v_r in
    run! (if r_done r then mret tt else precompute_receiver_random size) in
    fun st => pbind (get_receiver_cached size st) (fun '(st, r) =>
      match r with
      | Ok result => Ret (st, Ok result)
      | Err _ => run_receiver_loop (Z.to_nat size + 1) size [] (rr_delta (r_cached (v_r st))) st
      | UB w => Ret (st, UB w)
      end).

  (** ** Construction *)

  (** distributed_vector_ole.h:185-201; the deltas are uninitialised. *)
  Definition vole_new (m : mpfss) : vole :=
    let none := SenderResult [] [] in
    let empty := ReceiverResult [] (c_junk M 0) in
    Vole m 0 [] 0 0 0 0 (SenderSide none none none false [] []) (ReceiverSide empty empty empty false [] []).

  (** distributed_vector_ole.h:203-235 for a non-null channel; the first sync is
      the one in ScalarVectorGilboaProduct::Create
      (scalar_vector_gilboa_product.cpp:41). *)
  Definition vole_create (negative_security : bool) : proc S (res vole) :=
    if negative_security then Ret (Err (invalid_argument "`statistical_security` must not be negative.")) else
    sync (
    do! m := mpfss_create S false (c_id M) (c_peer_id M) in
    Ret (Ok (vole_new m))).
End Vole.

Arguments SenderResult {S}. Arguments sr_u {S}. Arguments sr_v {S}.
Arguments ReceiverResult {S}. Arguments rr_w {S}. Arguments rr_delta {S}.
Arguments s_cached {S}. Arguments s_vole_seed {S}. Arguments s_mpfss_seed {S}.
Arguments s_done {S}. Arguments s_made {S}. Arguments s_used {S}.
Arguments r_cached {S}. Arguments r_vole_seed {S}. Arguments r_mpfss_seed {S}.
Arguments r_done {S}. Arguments r_made {S}. Arguments r_used {S}.
Arguments v_mpfss {S}. Arguments v_rows {S}. Arguments v_columns {S}. Arguments v_batch_size {S}.
Arguments v_vole_seed_size {S}. Arguments v_mpfss_seed_size {S}. Arguments v_num_noise {S}.
Arguments v_s {S}. Arguments v_r {S}.
Arguments c_id {S}. Arguments c_peer_id {S}. Arguments c_split {S}. Arguments c_uniform64 {S}.
Arguments c_patience {S}. Arguments c_order {S}. Arguments c_junk {S}.
Arguments pairs {S}. Arguments mret {S A}. Arguments mfail {S A}. Arguments mbind {S A B}. Arguments mcalc {S A}.
Arguments mproc {S A}. Arguments mget {S A}. Arguments mset {S}. Arguments mmpfss {S A}.

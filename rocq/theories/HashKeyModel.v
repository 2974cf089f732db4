(** Model of the integral, character pointer and string specialisations of hash_helper and of
    hash_traits, src/jstd/hasher/hash_helper.h (HH), for ResultType = uint32_t.  The hash
    functions are those of HashModel.v, strings are those of StrModel.v: a pointer is the
    memory from there on, or [None] for nullptr. *)
From Coq Require Import NArith ZArith List Bool.
From Verif Require Import Base HashModel StrModel.
Import ListNotations.
Open Scope N_scope.

(** hash_helper<integral type, ...>::getHashCode, HH:79-81, for the types of HH:84-97: a
    conversion to uint32_t. *)
Definition integral_getHashCode (data : Z) : N := Z.to_N (data mod 2 ^ 32).

(** The hash functions on bytes, HH:220, 309, 396 (the macro argument HashFunc). *)
Definition bytes_hash (f : hash_func) (m : list N) (len : N) : res N :=
  match f with
  | HashFunc_CRC32C => hash_crc32 m 0 len
  | HashFunc_Time31 => Times31 1 m 0 len
  | HashFunc_Time31Std => Times31Std 1 m 0 len
  end.

(** hash_helper<CharTy *, ...>::getHashCode(data, length), HH:36-42. *)
Definition chars_getHashCode (f : hash_func) (ct : ctype) (data : option (list N)) (length : N) : res N :=
  match data with
  | Some m => if length =? 0 then Ok 0 else bytes_hash f m (wmul length (csz ct))
  | None => Ok 0
  end.

(** hash_helper<CharTy *, ...>::getHashCode(data), HH:44-51. *)
Definition cstr_getHashCode (f : hash_func) (ct : ctype) (data : option (list N)) : res N :=
  match data with
  | Some m => do n <- StrLen ct m; bytes_hash f m (wmul n (csz ct))
  | None => Ok 0
  end.

(** hash_helper<std::string | std::wstring | string_view | wstring_view, ...>::getHashCode,
    HH:224-294, 313-383, 400-470. *)
Definition str_getHashCode (f : hash_func) (ct : ctype) (data : option (list N)) (size : N) : res N :=
  match data with
  | Some m => bytes_hash f m (wmul size (csz ct))
  | None => Ok 0
  end.

(** hash_traits<uint32_t>::filter, HH:499-510. *)
Definition kInvalidHash : N := 4294967295.
Definition hash_filter (hash_code : N) : N := if negb (hash_code =? kInvalidHash) then hash_code else 0.

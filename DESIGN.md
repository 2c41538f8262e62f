# Formal model of d1-lib in Rocq (Coq 8.16.1)

## 1. What is modelled, and how

The model lives in `rocq/theories`. Every definition cites the Go file and lines it models.

* **Bytes** are lists of `Coq.Init.Byte.byte`; Go strings are byte lists; a Go `[]byte`
  whose nil-ness is observable is `option (list byte)` (`None` = nil).
* **Programs.** A Go method that performs effects is a `prog W A`: either a result or one
  *atomic step* on the world `W` followed by a continuation. One `io.Provider`, random,
  or clock access is one step (for the in-memory provider the `Load` and the `Store` of a
  `Put` are two steps, as in the code). The same program text is then interpreted
  sequentially (`run`), cut after any number of steps (crash), run through a
  fault-injecting provider, or interleaved with any number of other programs and an
  adversary who rewrites storage (`Sched`).
* **Dependency injection** is kept: `io.Provider`, `id.Provider`, `CryptorInterface`,
  `RandomInterface` are records of programs, and the theorems quantify over them
  through explicit contracts; the contracts are proved for the shipped implementations.
* **Cryptography** is concrete: AES-128/256, GCM, KWP (RFC 5649 as coded), Keccak, cSHAKE,
  KMAC, KMAC-KDF are written as total functions and checked against the repository's own
  test vectors with `vm_compute`. PBKDF2 is a parameter of the theorems that need it.
  What cannot be proved without a computational assumption (nobody forges an AEAD
  ciphertext) is stated inside the theorem: the model keeps a ghost log of every
  honest encryption, and a ghost flag that is raised when a decryption accepts a
  ciphertext that is not in the log. Theorems about adversaries conclude
  "… or the flag was raised".
* **Encodings** are concrete: json-iterator's printing and parsing for the types the library
  stores, base64, UUID text, uvarint, RFC 3339 time.
* **Errors** are values; panics are a separate outcome; loops over storage take fuel and
  return a distinct out-of-fuel outcome that statements exclude or prove impossible.

## 2. Plan per property

| id | model | proof method |
|----|-------|--------------|
| C01 | D1, Data, Cryptor, JSON | corollary of C02 plus concrete cryptor round trip |
| C02 | D1 over provider/cryptor/id contracts | forward simulation to `Spec` map, induction over history |
| C03 | verifyAccess/authorizeAccess | iff-characterisation |
| C04 | D1 | case analysis; step counting over a spy provider |
| C05, C06, C07 | spec map | induction over histories of the spec, transported by C02 |
| C08 | Encrypt over any random tape | invariant; colliding ids included |
| C09-C12 | crash = any number of steps; faults = any failing provider | two-slot abstraction (object blob, access blob) |
| C11 | UpdateCut.v | refuted in general by a concrete trace (P_UpdateCrash.v); what every interrupted Update does leave behind is proved from `update_spec` with the cut rule of the program logic (`C11_interrupted_update_partial`) |
| C13, C14 | scheduler + adversary | rely/guarantee invariant on the ghost encryption log |
| C15, C16 | scheduler | expected to be refuted by concrete schedules; weaker safe forms proved |
| C17 | D1 over arbitrary cryptor | two-run relational proof |
| C18, C34 | slices as (array, offset, length, capacity) over a heap | characterisation; refutations where the code aliases |
| C19-C22 | Token, base64, JSON, time | round trip; C22 expected to be refuted |
| C23-C25 | KWP/GCM generic in a permutation, instantiated with AES | induction over rounds |
| C26, C27 | Cryptor | composition |
| C28, C29 | KMAC framing | injectivity; refutation at block multiples / concatenation |
| C30 | password | direct |
| C31-C33 | Mem, Bolt | simulation to a map; schedules |
| C35-C40 | Standalone | simulation to a directory; refutations for C39, C40 |
| C41 | scopes as N | bitwise reasoning |
| C42-C46, C52 | SecureIndex | chain invariant, induction over history; linearizability by ghost state and a per-thread logic; refutations for crash and races |
| C47 | JSON strings | characterisation by UTF-8 validity; refutation outside it |
| C48, C49 | constructors, panic outcome | direct / invariant |
| C50 | uvarint | injectivity |
| C55, C56 | overlapping D1 calls | linearizability: ghost knowledge per call (owner of an object, of its list, reader), a per-call logic, one invariant for the pool; refutations by concrete schedules |
| C57, C58 | Standalone alone; D1, SecureIndex and Standalone together | the method of C13 and C14: one invariant on the log of encryptions (user records, group records, login tokens; and those of D1 and the index), a rely-guarantee proof per call; the three parts are each proved with what the others log as a parameter, and composed |
| C59 | CreateToken and GetIdentity with one token key | refuted for all histories, by the refinement of C36: a token of CreateToken becomes a session; with separate keys it is part of C58 |
| C60, C61 | all eight Standalone calls made at any time, their steps interleaved in any way, storage otherwise changing at will except for users and groups | as C55: each call has one step at which it acts on the directory of C36; a rely-guarantee proof per call against what calls not at odds with it may do, then one invariant of the whole pool; C61 refuted by three runs that no order explains. A LoginUser overlapping a password change of the same user is outside C60 because the proof needs the acting step to be fixed in advance: it is neither proved nor refuted |
| C62, C63 | all three index calls made at any time, their steps interleaved in any way, anything else happening except to the stored nodes | the raw entries of one keyword are owned by the calls for it: a separation-style logic per call (`own`) over what those entries contain, reusing the pure facts about the list of nodes, then one invariant of the pool; C63 refuted by a run over Bolt built from the same lemmas, without computing any cipher |
| C64 | the same GCM model as C25 | multiplication in GF(2^128) as the model computes it is shown to be a field (bilinear; linear maps commuting with multiplication by x are multiplications, hence commutative and associative; x^(2^128) = x and a certificate that only 0 and 1 equal their square, hence no zero divisors); GHASH is a polynomial in the subkey; a polynomial has at most as many roots as its degree |
| C65, C66 | `D1`, `SecureIndex` and `Standalone` on one storage, the Standalone resolving tokens (`Lib.v`, `LibHist.v`); specification `LibSpec.v`: directory, object map and index side by side | every call is shown to leave alone what the other two keep (`Foot.v`: which data types are written, which keys encrypted under) so the three refinement relations are kept together by induction over the run; the identity a call sees is the directory's because the token is looked up before anything else. For tokens the library handed out itself the ghost flag is shown never to rise (`Honest.v`, `HonestIx.v`, `LibHonest.v`): everything ever decrypted was logged by an encryption with the same key and associated data. C66 follows from the specification alone (`LibCor.v`) |
| C67 | every call of the assembled library (`Lib.v`) as a sequence of steps, any number of them interleaved with an adversary that cannot rewind the random source (`FreshSpec.v`) | each call is shown to draw, encrypt and reply in a disciplined way (`Fresh.v`, `tidy`): it holds a list of draws not yet used, each encryption consumes two of them, each new id or password one; an invariant of the run says that what is held, consumed and replied are all different draws of this run |
| C68 | the assembled library on any storage wrapped so that every request is recorded before it is carried out (`TrafficSpec.v`) | each call is shown to make only allowed requests, given the encryptions it has itself made so far (`Traffic.v`, `tells`); an invariant over interleaved runs collects them. That the wrapped storage still is a map is shown too, so the other theorems apply to it |
| C69, C70 | every method of `d1.go`, `utility.go`, `index/index.go` and `id/standalone.go` again, with its log lines, over memory in which loggers are slices of bytes that share arrays (`Log.v`; zerolog re-specified) | each call with its lines is related to the same call without (`LogProofs.v` `traced`, `LogCalls.v`); ownership of arrays over interleaved runs (`LogPool.v`). C70 is refuted for overlapping calls that share a logger with room (`C70_mixed_refuted`), proved for loggers that share no room and for calls made one after another |
| C71 | `crypto/kmac.go` as an object with `Write`, `Sum`, `Reset`, `Size`, `BlockSize`, over the buffering sponge of `x/crypto/sha3` re-specified (`KmacObj.v`); `KMACKDF` and `Tag` call by call | the sponge holds the whole blocks of what was written, folded, and the rest in its buffer (`KmacObjProofs.v` `holds`), kept by every method; one induction over the list of calls against `answers` (`KmacObjSpec.v`) |
| C72 | the D1 calls, each through a provider that may fail, answered or cut after any number of steps (`CrashSpec.v` `x_run`) | refinement: the two slots of every id hold what the shelf of `CrashSpec.v` says (`CrashProofs.v` `shelved`); the states a call passes through (from the program logic of `D1Calls.v`) are the cut effects, the state it ends in the answered one; the consequences by induction over the specification alone (`CrashFacts.v`) |
| C73 | D1, SecureIndex and Standalone on one storage, every call through a provider of its own that may fail, answered or cut after any number of steps (`LibCrash.v` `lib_xrun`) | refinement (`LibCrash.v` `LX`): directory, shelf and index each hold in the same world; what a call of one kind may touch (`x_foot`) leaves the relations of the other two alone; the caller of an object or index call comes from the Standalone's own answer (`x_resolves`); revocation and deletion by induction over the specification alone (`LibCrashFacts.v`) |
| C74 | any number of calls of the three kinds on one storage, their steps interleaved (`LibConcSpec.v` `lib_conc`), with marks where a token has been looked up (`LibConc.v` `srun`) | the run is projected to three runs, one per component (`LibConcParts.v`): in the run of the Standalone an object or index call is a GetIdentity, in those of the D1 and the index the identity provider is a table of the answers found; what the others do is noise to each, because calls of one kind write only their own kinds of data (`LibTouch.v`); the orders that C55, C60 and C62 give are cut at every observation (`LibConcOrder.v`) and merged (`LibConcMerge.v`) |
| C75, C76 | the calls of C74 and what a caller can go by: calls made and answered (`LibConcUseSpec.v` `logged_in`, `user_deleted`, `user_removed`, `list_seen`) | C75 from the order of C74 alone: what was answered before the call was made has acted before its lookup (`LibConcUse.v` `came_before`), and nothing later undoes it (`settled_out`); C76 is refuted by one run (`LibRevokeDemo.v`), for which every assignment of single moments is excluded by cases (`LibRevokeCase.v` `no_moment`) |
| C77 | the calls of C74 and what a caller can go by: the last answered call that stored or deleted the object, the answered Adds and Deletes of a keyword (`LibReadSpec.v` `object_stored`, `object_deleted`, `seen_listing`) | from the order of C74 alone: the storing call has acted before the Decrypt and nothing that acts in between touches the object; for Search, the Adds and Deletes of one keyword do not overlap (C62), so the order in which they act is the order in which they were made, by induction over the observations (`LibRead.v`); runs in `LibReadDemo.v` |
| C78 | the calls of C74 and what a caller can go by: the last answered call that put a group on a list, took it off or showed the list (`LibListSpec.v` `group_on`, `group_off`) | from the order of C74 alone: that call has acted before the later one, and nothing that acts in between changes that entry of that list; the object is still there, since a Delete would be one of those calls (`LibList.v`); runs in `LibListDemo.v`, one with overlap and one in which a user is taken off a list |
| C79 | the calls of C74 and what a caller can go by: the answers that have shown a password, a membership or the scopes of a user and a group (`LibUserSpec.v` `password_is`, `member_of`, `entitled`) | from the order of C74 alone, cut off after the answer to the later call (`LibPart.v`): what the answer has shown still holds when the later call looks up its token or acts, because no call that acts in between changes it (`LibUser.v`); with C77 and C78 this gives Decrypt by a member; runs in `LibUserDemo.v` |
| C80 | the calls of C74 and, for everything that can be returned, which calls put it there (`LibOriginSpec.v` `came_from`) | from the order of C74 alone: an invariant of the state says that every user, group, session, object, list entry and index entry comes from a call that has acted, hence was made, and whose answer, if there is one, says so (`LibOrigin.v`); runs in `LibOriginDemo.v` |
| C81 | a call beside others that may turn the world into any other between two of its steps (`ProgressSpec.v` `beside`), any storage with bounded calls, any identity provider; the table of storage calls and other steps per call | compositionally: steps of a sequence add up (`Progress.v`); the bound for tokens is in the number of groups of the user that is read. Runs that reach the bounds are in `ProgressDemo.v`. Index calls follow a chain that others may lengthen, so they have no such bound; C43 bounds them by the length of the chain |
| C82 | an object that can be decrypted, and a world in which the stored record of it or of its access list has another tag or other data in one block (`DamageSpec.v`); any storage, any identity provider that only reads | a Decrypt that succeeds has opened both records (`Damage.v` `decrypt_ok`); if it succeeded again after the damage, one key would accept two messages that C64 says it cannot both accept; records damaged by hand in `DamageDemo.v` |
| C83 | a token that GetTokenContents, or the identity provider, has accepted, and one that differs from it in the tag, in its data inside one block, or in the JSON text of its expiry inside one block (`DamageTokenSpec.v`) | accepting a token means that its key, found by unwrapping, opens the ciphertext with the expiry as associated data; if both were accepted, one key would accept two messages that C64 says it cannot both accept (`DamageToken.v`); tokens of CreateToken and LoginUser altered by hand in `DamageTokenDemo.v` |
| C53, C54 | AES256GCM and Cryptor over a heap | frame lemmas; rely/guarantee for concurrent calls |
| C51 | Standalone with cut and failing calls | simulation, with a two-step case for NewGroup |

## 3. Not modelled

* goroutine scheduling inside Go's runtime, `context` cancellation, zerolog beyond what `Log.v` re-specifies (levels other than debug, the writer, the text of messages).
* bbolt itself: a bucket is a finite map and a transaction is one atomic step.
* `x/crypto/sha3`, `crypto/aes`, `crypto/cipher` are re-specified rather than translated.
* Timing and other side channels; computational security of the primitives.
* Code that only tests call: `MockRandom` (crypto/random.go), the `verify` methods of sealed users and groups, and
  `User.containsGroups`.
* `DataType.String` (nothing calls it; `Mem` formats the number itself with `%d`) and opening the bbolt file
  (`NewBolt`): the model starts from whatever the bucket holds.

## 4. Findings

Where the code does not have a property one would expect, the development says so with a theorem
whose name ends in `_refuted`. Each exhibits a concrete run of the model.

1. **Update is not crash-atomic** (C11). `Update` rewrites the object, then the access list. Cut in
   between, the object is encrypted under a key the stored access list does not hold, and `Decrypt`
   fails for everybody until an `Update` succeeds (C12 proves that one repairs it).
2. **Concurrent Updates and access changes interfere** (C15, C16). Two overlapping `Update`s can leave
   an unreadable object; overlapping `AddGroupsToAccess`/`RemoveGroupsFromAccess` calls lose one of the
   changes, so a revocation that was answered with success can be undone. An `AddGroupsToAccess` that
   overlaps an `Update` writes the old key back: both succeed and nobody can decrypt the object any more
   (C56). A `Decrypt` overlapping an `Update` or `Delete` fails with an internal error. C55 proves that
   calls other than two changes of one object, or an `Update`/`Delete` and a `Decrypt` of it, may overlap.
3. **Mem.Put is check-then-store** (C33, C45). Two concurrent Puts of one key both succeed.
4. **Bolt reads an empty value as absent** (C32), although Put of it again says it exists.
5. **An index Delete that dies half way can bring an identifier back** (C44): the retried Delete
   succeeds, and a later Add of another identifier makes the deleted one visible again.
6. **Concurrent index calls lose identifiers** (C45 over Mem, C52 over any storage).
7. **A user can be added to a "group" that is a user id** (C38, C39): AddUserToGroups accepts the
   caller's own id as a group, and a later RemoveUserFromGroups locks the user out.
8. **Standalone's records are not bound to the id they are stored under** (C40): exchanged records
   are accepted.
9. **KWP Unwrap accepts padded sizes that Wrap cannot make** (C24), **bytepad adds a block when the
   input already fills one** (C28), **KMAC-KDF contexts are concatenated without separators** (C29).
10. **The documented ciphertext length does not hold** (C26).
11. **Token strings are malleable** (C22): several strings denote one token.
12. A token is accepted at the very second it expires (C19 states the inclusive bound);
    `ScopeCreateToken` and `ScopeGetTokenContents` exist and are never checked; `DeleteUser` needs any
    valid token only; a login token survives a change of password.
13. `NewGroup` whose second half fails leaves a group nobody is a member of (C51).
14. An `Encrypt` that meets an orphan access list under its fresh id fails but leaves its object blob
    stored (C08, C10 describe it).
15. **LoginUser can be made to panic if users and groups share a key** (C49). NewStandalone accepts
    equal keys. A group record, its `GID` field renamed to `UID` and stored in the slot of a user,
    then decrypts as a user without a password hash, and comparing the password slices out of range.
16. **Strings that are not UTF-8 change in storage** (C47). json-iterator replaces every malformed byte
    by U+FFFD. An object shared with the group 0xfe is open to the group U+FFFD and not to the group
    0xfe; a caller whose id is malformed cannot open their own object; removing or deleting such a
    string succeeds without effect. The specifications of objects and of the index say so: they keep
    `as_text s`, which is `s` for UTF-8.
17. **Absent and empty associated data are the same** to the authenticated encryption (C27).
18. **The index counts nodes with a wrapping uint64**; C42-C46 assume fewer than 2^64 Adds.
19. **Encrypt writes behind the caller's groups slice** (C18): `append(groups, identity.ID)` works in place
    if the slice has spare capacity. Two concurrent Encrypts given the same such slice can swap owners:
    bob decrypts alice's object and alice cannot.
20. **Bolt writes its key behind the caller's id** (C34), and so overwrites three bytes if the capacity
    allows, even in Get. Data lying there is stored corrupted; two concurrent calls with one such id
    slice can use each other's data type. D1 itself passes slices of 16-byte arrays, without room.
21. **Mem keeps the caller's buffer and hands it out again** (C34): later writes change stored data.
22. **CreateToken logs in as anybody if the token key is shared** (C59). `key.Keys` and
    `id.StandaloneConfig` both have a `TEK` read from the setting `tek`, and the two kinds of token have
    the same format and associated data. With equal keys, `CreateToken(uid)`, which asks for no
    authentication, yields a token as which `GetIdentity` resolves to `uid`.
23. **A user record is read, changed and written back without a lock** (C61). `ChangeUserPassword`
    overlapping a `NewGroup` or `AddUserToGroups` of the same user can succeed and yet be undone: the old
    password works again and the new one does not. A `RemoveUserFromGroups` can be undone likewise. C60
    says which calls may safely overlap.
24. **Membership is checked before the call acts** (C61): a member removed while their `AddUserToGroups`
    is under way still lets the other user in, after the removal has been answered.
25. **A Search that overlaps a Delete can lose the rest of the list** (C63). Delete moves the next node
    into the place of the removed one and then removes the next node's old entry; a Search that has just read
    the removed node follows its link to that entry, finds nothing, takes it for the end of the list and
    answers with success. C62 says which index calls may safely overlap.
26. **Log lines of overlapping calls mix** (C70). `CopyCtxLogger` copies the `zerolog.Logger`, but not the
    array behind its context, and `With()` leaves room for 500 bytes. Two calls made at the same time with
    the same logger write their method, object and user ids into the same bytes: a line of one can carry
    the ids of the other (`C70_mixed_refuted`). The caller's own context is not touched
    (`C69_context_kept`), and one call at a time is safe (`C70_in_turn`).
27. **Revocation does not reach calls that are going on** (C76). An object call looks up the token first and
    acts as the identity found, however much later. A user who has been taken out of the only group that
    gave access, and then deleted, both answered, can still be told what others put on the access list
    after that (`C76_one_moment_refuted`). Calls made after the answer are refused (C75).

## 5. Trusted base

* **Coq 8.16.1's kernel** (and `coqchk`), with its virtual machine, which checks the concrete runs
  (`vm_cast_no_check`); `coqchk` rechecks those without it.
* **Axioms: none.** `Print Assumptions` follows every theorem in the `P_*.v` files and prints
  "Closed under the global context" for each. std++ is used as a library; it adds no axioms.
* **The model is a transcription.** Each definition cites the Go lines it transcribes; nothing checks
  the transcription mechanically. What helps: the repository's own test vectors for AES-GCM, KWP, KMAC
  and the KDF evaluate to the expected bytes in `Vectors.v`, and a set of realistic bugs planted in
  the model is caught by the theorems (`seeded/LOG.jsonl`).

**Modelled, in full:** `d1.go`, `utility.go`; `data/` (object, access, token, node); `crypto/` (aes,
cryptor, kwp, kmac, kdf, tagger, password, random as an arbitrary tape that may fail); `id/` (scopes,
identities, Standalone); `index/index.go`; `io/` (mem, bolt, proxy); `key/`.

**Re-specified rather than translated:** AES, GCM, Keccak/cSHAKE (Go's and x/crypto's), json-iterator
for the types the library stores, base64, hex, google/uuid text, `encoding/binary` uvarint, RFC 3339
times. PBKDF2 is a parameter: theorems hold for every function of its type.

**Simplified:**

* One call of an `io.Provider`, of the random source, of the clock or of the identity provider's
  storage is one atomic step; the Load and the Store of `Mem.Put`/`Mem.Update` are two. Go's memory
  model below that is not modelled.
* Slices are copied, not shared, everywhere but in `Slices.v`, which models the calls that take slices from
  the caller or hand them out (groups of Encrypt/AddGroupsToAccess/RemoveGroupsFromAccess, Mem, Bolt,
  AES256GCM, Cryptor) over a heap of arrays; reading or writing one slice element, or one append, is one step.
* Node numbers are `N` with the wrap of uint64 addition written out; lengths of byte strings are not
  bounded by the address space.
* The loops of the index count down from a fuel argument; the theorems give the amount that suffices
  (C43) and conclude that it does not run out.
* The secrecy and authenticity of AES-GCM and the collision resistance of KMAC are never assumed as
  axioms. Theorems that need authenticity say "the ghost flag `w_forged` is not raised" in a hypothesis;
  theorems that need distinct labels or keys say so for the labels and keys of the run at hand.

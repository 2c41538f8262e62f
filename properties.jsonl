{"id": "C01", "title": "Encrypt then Decrypt returns the same object", "statement": "If Encrypt(token, object, groups) returns an id and nothing else happens to that id, Decrypt(token', id) by any caller who is scoped for Decrypt and is the encrypting identity or holds one of the listed groups with Decrypt scope returns exactly the plaintext and associated data that were passed in, byte for byte, including the nil/empty distinction.", "quantifier": "every plaintext and associated data of any length, every group list, every caller identity, every random tape, every storage state", "why_tests_cant": "length-, content- and randomness-unbounded", "anchors": ["d1.go:Encrypt", "d1.go:Decrypt", "data/object.go:Seal", "data/object.go:Unseal", "crypto/cryptor.go"]}
{"id": "C02", "title": "D1 is a sequentially consistent access-controlled object map", "statement": "Any sequence of Encrypt, Update, Decrypt, Delete, GetAccessGroups, AddGroupsToAccess, RemoveGroupsFromAccess and AuthorizeIdentity calls, issued one after the other on a fault-free store, returns exactly what a simple map from object id to (plaintext, associated data, set of group ids) would return, error codes included.", "quantifier": "every finite history of API calls, arguments, caller identities and random draws", "why_tests_cant": "histories are unbounded and the property relates every prefix to an abstract state", "anchors": ["d1.go", "utility.go", "io/io.go:Provider"]}
{"id": "C03", "title": "Access decision is exact", "statement": "An object call is let through exactly when the token resolves to an identity, that identity's own scopes contain the scope required for the call, and at least one of the identity's ids (own id or group id) is in the object's access list with scopes (own scopes, or that group's scopes) containing the required scope. No other combination is let through and none of these is refused.", "quantifier": "every identity, every set of groups and scopes (all 2^64 scope words), every access list, every required scope", "why_tests_cant": "the decision table is a product of unbounded sets", "anchors": ["utility.go:verifyAccess", "utility.go:authorizeAccess", "id/id.go", "id/scope.go"]}
{"id": "C04", "title": "Refused calls have no effect on storage", "statement": "A call that returns 'not authenticated' or 'not authorized' has not changed anything in storage; a call refused before the access list is consulted has not even read storage through the IO provider.", "quantifier": "every API call, every caller, every storage state, every provider", "why_tests_cant": "must hold for all states and refused callers", "anchors": ["d1.go", "utility.go:verifyAccess"]}
{"id": "C05", "title": "Revocation takes effect", "statement": "After RemoveGroupsFromAccess(id, G) has returned success in a sequential history, every caller none of whose ids remains in the access list is refused by Decrypt, Update, Delete, GetAccessGroups, Add/RemoveGroups and AuthorizeIdentity, in every later state until some successful AddGroupsToAccess on that id re-adds one of the caller's ids.", "quantifier": "every history before and after the revocation, every caller", "why_tests_cant": "quantifies over all continuations", "anchors": ["d1.go:RemoveGroupsFromAccess", "data/access.go:RemoveGroups"]}
{"id": "C06", "title": "An emptied access list locks the object forever", "statement": "Once the access list of an existing object is empty, no sequence of API calls by any callers ever decrypts, updates, deletes or re-shares that object again.", "quantifier": "every continuation of calls by every caller", "why_tests_cant": "an impossibility over unbounded histories", "anchors": ["d1.go", "utility.go:authorizeAccess"]}
{"id": "C07", "title": "Calls on one object never influence another object", "statement": "No call naming object id A changes the result of any call naming a different object id B, nor does Encrypt change the result for any existing object.", "quantifier": "every pair of distinct ids, every call, every state, every random tape (including id collisions)", "why_tests_cant": "frame property over all states", "anchors": ["d1.go", "utility.go"]}
{"id": "C08", "title": "Encrypt never overwrites", "statement": "Encrypt never changes or replaces a stored object or access list, even when the random id it draws collides with an existing id: it then returns ErrObjectAlreadyExists or ErrAccessAlreadyExists.", "quantifier": "every random tape, every storage state", "why_tests_cant": "collisions cannot be provoked by tests with a real generator", "anchors": ["d1.go:Encrypt", "utility.go:putSealedObject", "utility.go:putSealedAccess", "io/mem.go:Put", "io/bolt.go:Put"]}
{"id": "C09", "title": "Delete survives failure at every point and can be retried", "statement": "If Delete fails or the process dies after any prefix of its storage operations, repeating Delete with the same caller on a working store succeeds and leaves neither object nor access list; and Delete of an already deleted object returns success without effect.", "quantifier": "every crash/fault point, every state and caller", "why_tests_cant": "crash points times states", "anchors": ["d1.go:Delete"]}
{"id": "C10", "title": "Interrupted Encrypt exposes nothing", "statement": "If Encrypt fails or the process dies after any prefix of its storage operations, every other object behaves as before and no API call ever returns the half-stored plaintext.", "quantifier": "every crash/fault point, every state and continuation", "why_tests_cant": "crash points times states", "anchors": ["d1.go:Encrypt"]}
{"id": "C11", "title": "Update is atomic under failure", "statement": "If Update fails or the process dies after any prefix of its storage operations, an authorised Decrypt afterwards returns either the old or the new object. (Expected by users; the code writes object and access list separately.)", "quantifier": "every crash/fault point, every state", "why_tests_cant": "crash points times states", "anchors": ["d1.go:Update"]}
{"id": "C12", "title": "Update after a failed Update repairs the object", "statement": "After Update fails or dies at any point, Decrypt returns the old object, the new object or an error but never anything else; the access list is unchanged; and repeating Update with any object on a working store makes Decrypt return that object.", "quantifier": "every crash/fault point, every state and caller", "why_tests_cant": "crash points times states", "anchors": ["d1.go:Update"]}
{"id": "C13", "title": "Decrypt returns only data that was really written for that id, under every schedule", "statement": "In any interleaving of any number of concurrent API calls, and with storage contents arbitrarily rewritten by an adversary between any two storage operations, if Decrypt(id) returns an object then that exact plaintext/associated-data pair was passed to an Encrypt or to an Update of that id, unless the adversary forged an AEAD ciphertext.", "quantifier": "every number of threads, schedule, adversarial storage behaviour, random tape", "why_tests_cant": "schedules and adversaries are unbounded", "anchors": ["d1.go", "data/object.go", "crypto/cryptor.go"]}
{"id": "C14", "title": "Untrusted storage cannot widen access", "statement": "With storage contents arbitrarily rewritten by an adversary, Decrypt (and every other object call) lets a caller through only if an access list that the library itself sealed for that very id lists one of the caller's suitably scoped ids, unless the adversary forged an AEAD ciphertext. In particular sealed access lists and objects cannot be moved between ids.", "quantifier": "every adversarial storage behaviour, every interleaving", "why_tests_cant": "adversaries are unbounded", "anchors": ["data/access.go", "utility.go:getSealedAccess", "d1.go"]}
{"id": "C15", "title": "Concurrent successful Updates leave a decryptable object", "statement": "If two Updates of the same object run concurrently and both return success, an authorised Decrypt afterwards succeeds and returns one of the two objects.", "quantifier": "every schedule", "why_tests_cant": "schedules", "anchors": ["d1.go:Update"]}
{"id": "C16", "title": "Revocation is not undone by concurrent calls", "statement": "If RemoveGroupsFromAccess(id, g) returns success and no call adds g, g is not in the access list afterwards, whatever other calls ran concurrently.", "quantifier": "every schedule", "why_tests_cant": "schedules", "anchors": ["d1.go:Update", "d1.go:RemoveGroupsFromAccess"]}
{"id": "C17", "title": "Plaintext reaches storage only through the cryptor", "statement": "Two Encrypt (or Update) calls that differ only in the plaintext, and for which the cryptor hands back the same ciphertext and wrapped key, perform exactly the same storage operations with exactly the same bytes and return the same result: the plaintext influences storage through nothing but the ciphertext.", "quantifier": "every pair of plaintexts, every cryptor, provider and state", "why_tests_cant": "two-run (non-interference) property", "anchors": ["d1.go:Encrypt", "d1.go:Update", "data/object.go"]}
{"id": "C18", "title": "Encrypt leaves the caller's group slice alone", "statement": "Encrypt(…, groups...) neither modifies memory reachable from the caller's slice nor lets one caller's call influence the access list created by another caller's concurrent call that was given the same slice.", "quantifier": "every slice length and capacity, every schedule", "why_tests_cant": "aliasing depends on capacity and schedule", "anchors": ["d1.go:Encrypt"]}
{"id": "C19", "title": "Token round trip and expiry", "statement": "GetTokenContents(CreateToken(p)) returns exactly p at every moment up to and including the expiry time, and an error at every later moment; a token that went through its string form behaves the same.", "quantifier": "every payload, every pair of clock readings", "why_tests_cant": "continuous time and unbounded payloads", "anchors": ["d1.go:CreateToken", "d1.go:GetTokenContents", "data/token.go"]}
{"id": "C20", "title": "Token contents and expiry cannot be altered", "statement": "If GetTokenContents accepts a token, the payload and the expiry time are those of one token that was really created, unless an AEAD ciphertext was forged; extending the expiry of a token is therefore detected.", "quantifier": "every adversarially chosen token", "why_tests_cant": "adversaries are unbounded", "anchors": ["data/token.go:Unseal", "crypto/cryptor.go:Decrypt"]}
{"id": "C21", "title": "Token string form is lossless and total on garbage", "statement": "TokenFromString(String(t)) gives back t with the same expiry, ciphertext and wrapped key, and TokenFromString on any string returns a token or an error, never panics.", "quantifier": "every token, every string", "why_tests_cant": "unbounded inputs", "anchors": ["data/token.go:String", "data/token.go:TokenFromString"]}
{"id": "C22", "title": "A token has a single accepted string form", "statement": "Two different strings are never accepted as the same token.", "quantifier": "every pair of strings", "why_tests_cant": "unbounded inputs", "anchors": ["data/token.go:TokenFromString"]}
{"id": "C23", "title": "Key wrapping round-trips", "statement": "For every wrapping key, Unwrap(Wrap(k)) = k for every key material of 16 to 8192 bytes; all other sizes are refused by Wrap; the wrapped length is the padded length plus 8.", "quantifier": "every wrapping key, every key material, every length 16..8192", "why_tests_cant": "8177 lengths times 2^65536 values", "anchors": ["crypto/kwp.go"]}
{"id": "C24", "title": "Unwrap accepts only canonical wrappings", "statement": "If Unwrap(y) = k then y is the one and only wrapping of k under that key: no two different wrapped keys unwrap to the same key material, and any change to a wrapped key changes or invalidates the result; k is never shorter than the minimum size Wrap accepts.", "quantifier": "every wrapping key, every byte string", "why_tests_cant": "all byte strings", "anchors": ["crypto/kwp.go:Unwrap", "crypto/kwp.go:invertW"]}
{"id": "C25", "title": "AES-256-GCM framing", "statement": "Encrypt followed by Decrypt with the same key and associated data returns the plaintext; the output is exactly 28 bytes longer than the input (ciphertext, tag, nonce in this order); any input shorter than 28 bytes or key of wrong length is refused; whatever Decrypt accepts is the encryption of what it returns under that key, nonce and associated data.", "quantifier": "every key, nonce, associated data, plaintext and ciphertext", "why_tests_cant": "unbounded inputs", "anchors": ["crypto/aes.go"]}
{"id": "C26", "title": "Cryptor round trip, binding and ciphertext size", "statement": "Decrypt(Encrypt(v, d)) with equal d returns v; ciphertext and associated data are bound: anything accepted for associated data d was encrypted under the same d; the ciphertext of an n-byte object is 4*ceil(n/3)+30 bytes. (The documentation of Encrypt claims n+48.)", "quantifier": "every plaintext, associated data, key", "why_tests_cant": "unbounded inputs", "anchors": ["crypto/cryptor.go", "d1.go:Encrypt doc comment"]}
{"id": "C27", "title": "Associated data of an object is unambiguous", "statement": "No two different (object id, associated data) pairs are authenticated under the same AEAD associated data, and no object, access list, token, user, group or index node encryption shares its AEAD associated data and plaintext encoding with one of a different kind.", "quantifier": "every id and associated data", "why_tests_cant": "unbounded inputs", "anchors": ["data/object.go", "data/access.go", "data/node.go", "id/standalone_user.go", "id/standalone_group.go"]}
{"id": "C28", "title": "KMAC framing is unambiguous and follows SP 800-185", "statement": "The byte string absorbed by KMAC determines key, message and requested length uniquely; left_encode/right_encode/bytepad produce exactly the encodings of SP 800-185.", "quantifier": "every key length, message, customization string and tag size", "why_tests_cant": "boundary at exact block multiples is not hit by the vectors", "anchors": ["crypto/kmac.go"]}
{"id": "C29", "title": "KMACKDF separates its inputs", "statement": "Different label/context inputs to KMACKDF absorb different byte strings; in particular for a list of context strings the list is recoverable.", "quantifier": "every label and context list", "why_tests_cant": "unbounded inputs", "anchors": ["crypto/kdf.go"]}
{"id": "C30", "title": "Password check is exact and never panics on stored hashes", "statement": "Compare accepts the generated password for the hash generated with it, accepts a password exactly when its PBKDF2 value under the stored salt equals the stored hash, and never panics for a record produced by GeneratePassword.", "quantifier": "every random tape, every candidate password", "why_tests_cant": "unbounded inputs", "anchors": ["crypto/password.go"]}
{"id": "C31", "title": "In-memory provider is a map", "statement": "Any sequence of Put/Get/Update/Delete on the in-memory provider behaves as a finite map keyed by (id, data type) with the documented errors; different (id, type) pairs never collide.", "quantifier": "every history, every id byte string and data type", "why_tests_cant": "unbounded histories and keys", "anchors": ["io/mem.go", "io/io.go"]}
{"id": "C32", "title": "Bolt provider is a map", "statement": "Any sequence of Put/Get/Update/Delete on the Bolt provider behaves as the same finite map; different (id, type) pairs never collide.", "quantifier": "every history, every id byte string, data type and value", "why_tests_cant": "unbounded histories and keys", "anchors": ["io/bolt.go", "io/io.go"]}
{"id": "C33", "title": "Put is exclusive under concurrency", "statement": "Of any number of concurrent Puts with the same id and type at most one returns success, and its value is the one stored.", "quantifier": "every schedule", "why_tests_cant": "schedules", "anchors": ["io/mem.go:Put", "io/bolt.go:Put"]}
{"id": "C34", "title": "Providers neither alias nor modify the caller's buffers", "statement": "A provider call never modifies memory of the caller's id slice beyond or within its length, and later writes of the caller to the data slice do not change stored data, nor do writes to a returned slice.", "quantifier": "every slice length/capacity and later write", "why_tests_cant": "aliasing depends on capacity", "anchors": ["io/bolt.go", "io/mem.go"]}
{"id": "C35", "title": "Login and identity", "statement": "LoginUser(uid, pw) succeeds exactly when the user exists and pw hashes to the stored hash; the returned token makes GetIdentity return that uid with the user's current scopes and exactly the user's current groups with the groups' scopes, until it expires.", "quantifier": "every history of standalone-provider calls, every credential", "why_tests_cant": "unbounded histories", "anchors": ["id/standalone.go:LoginUser", "id/standalone.go:GetIdentity"]}
{"id": "C36", "title": "Standalone provider refines a user/group directory", "statement": "Any sequence of NewUser, LoginUser, ChangeUserPassword, AddUserToGroups, RemoveUserFromGroups, DeleteUser, NewGroup, GetIdentity calls returns exactly what a simple directory of users (scopes, password hash, groups) and groups (scopes) would return.", "quantifier": "every finite history", "why_tests_cant": "unbounded histories", "anchors": ["id/standalone.go"]}
{"id": "C37", "title": "Password change", "statement": "After a successful ChangeUserPassword the returned password logs in, the old one no longer does (unless both hash to the same value under the new salt), scopes and groups are unchanged and other users are unaffected; a wrong old password changes nothing.", "quantifier": "every state and password", "why_tests_cant": "unbounded states", "anchors": ["id/standalone.go:ChangeUserPassword", "id/standalone_user.go:changePassword"]}
{"id": "C38", "title": "Only group members change group membership", "statement": "AddUserToGroups and RemoveUserFromGroups succeed only if the caller is a member of every named group; otherwise nothing changes.", "quantifier": "every state, caller and list of group ids", "why_tests_cant": "unbounded states", "anchors": ["id/standalone.go:AddUserToGroups", "id/standalone.go:RemoveUserFromGroups"]}
{"id": "C39", "title": "No caller can lock another user out", "statement": "If a user can resolve their token to an identity, then no AddUserToGroups call of another user makes GetIdentity fail for them.", "quantifier": "every state and call", "why_tests_cant": "unbounded states", "anchors": ["id/standalone.go:AddUserToGroups", "id/standalone.go:GetIdentity"]}
{"id": "C40", "title": "User and group records are bound to their ids", "statement": "With storage rewritten by an adversary, the record used for uid (or gid) is one the library sealed for that uid (gid), unless an AEAD ciphertext was forged: swapping two sealed user records is detected.", "quantifier": "every adversarial storage behaviour", "why_tests_cant": "adversaries are unbounded", "anchors": ["id/standalone.go:getUser", "id/standalone.go:getGroup"]}
{"id": "C41", "title": "Scope algebra", "statement": "Contains is set inclusion on scope bits, ScopeUnion is the least upper bound of its arguments, ScopeAll contains exactly the nine defined scopes, ScopeNone contains only itself; a newly created user or group has exactly the union of the given scopes.", "quantifier": "all 64-bit scope words, all argument lists", "why_tests_cant": "2^128 pairs", "anchors": ["id/scope.go", "id/standalone_user.go:newUser", "id/standalone_group.go:newGroup"]}
{"id": "C42", "title": "Secure index is a keyword multimap", "statement": "Any sequence of Add, Delete and Search calls on a fault-free store behaves as a map from keyword to list of identifiers: Add appends, Delete removes all occurrences of the identifier and keeps the order of the rest, Search returns the list; keywords do not influence each other.", "quantifier": "every history of calls, every keyword and identifier", "why_tests_cant": "unbounded histories", "anchors": ["index/index.go", "data/node.go"]}
{"id": "C43", "title": "Index calls terminate", "statement": "On every state reachable by successful calls, Add, Search and Delete terminate after a number of storage operations linear in the number of stored entries for the keyword.", "quantifier": "every reachable state", "why_tests_cant": "unbounded loops over storage", "anchors": ["index/index.go:Search", "index/index.go:Delete", "index/index.go:getLastNode"]}
{"id": "C44", "title": "Interrupted index Delete is harmless", "statement": "If Delete fails or dies after any prefix of its storage operations, Search returns the old list with some occurrences of the deleted identifier missing and nothing else changed, and after a successful retry the identifier never comes back unless added again.", "quantifier": "every crash/fault point and continuation", "why_tests_cant": "crash points times histories", "anchors": ["index/index.go:Delete", "index/index.go:deleteNode"]}
{"id": "C45", "title": "Concurrent index Adds are not lost", "statement": "If several Adds for the same keyword run concurrently, every identifier whose Add returned success is found by a later Search.", "quantifier": "every schedule", "why_tests_cant": "schedules", "anchors": ["index/index.go:Add", "io/mem.go:Put"]}
{"id": "C46", "title": "Search returns only identifiers added for that keyword", "statement": "With storage arbitrarily rewritten by an adversary and under any interleaving, every identifier returned by Search(keyword) was passed to an Add for that keyword, unless the adversary forged an AEAD ciphertext.", "quantifier": "every adversarial storage behaviour and schedule", "why_tests_cant": "adversaries are unbounded", "anchors": ["index/index.go:Search", "data/node.go:Unseal"]}
{"id": "C47", "title": "Strings survive storage", "statement": "Identifiers and group ids come back from storage exactly as they were passed in.", "quantifier": "every byte string", "why_tests_cant": "all byte strings, including invalid UTF-8", "anchors": ["index/index.go:Add", "d1.go:AddGroupsToAccess", "crypto/cryptor.go:Encrypt"]}
{"id": "C48", "title": "Constructors validate keys", "statement": "New, NewSecureIndex and NewStandalone succeed exactly when every key they use is 32 bytes long (and the key provider succeeded).", "quantifier": "every key length", "why_tests_cant": "unbounded inputs", "anchors": ["d1.go:New", "index/index.go:NewSecureIndex", "id/standalone.go:NewStandalone", "crypto/cryptor.go:NewAESCryptor"]}
{"id": "C49", "title": "API calls do not panic", "statement": "No D1, SecureIndex or Standalone call panics in any state reachable by API calls, whatever storage returns.", "quantifier": "every reachable state and every storage answer", "why_tests_cant": "unbounded states and adversarial storage", "anchors": ["d1.go", "index/index.go", "id/standalone.go", "data/access.go:AddGroups"]}
{"id": "C50", "title": "Label encoding is injective", "statement": "Different counters are encoded to different label inputs, so within a keyword two entries share a label only if the MAC collides.", "quantifier": "all 2^64 counters", "why_tests_cant": "2^128 pairs", "anchors": ["data/node.go:NextLabel", "crypto/tagger.go"]}
{"id": "C51", "title": "Interrupted identity-provider calls", "statement": "If a Standalone call is cut off after any number of steps, or storage fails during it, it has had all of its effect or none of it (NewGroup may also have created the group without adding the caller to it), no other user, group or session is touched, and all later calls behave accordingly.", "quantifier": "every history, every crash point, every storage fault", "why_tests_cant": "tests cannot enumerate every crash point and every continuation", "anchors": ["id/standalone.go:NewUser", "id/standalone.go:ChangeUserPassword", "id/standalone.go:NewGroup", "id/standalone.go:putUser"]}
{"id": "C52", "title": "An Add that overlaps a Delete is not lost", "statement": "If an Add for a keyword succeeds while a Delete of another identifier runs for the same keyword, a Search made after both were answered finds the added identifier.", "quantifier": "every schedule", "why_tests_cant": "schedules", "anchors": ["index/index.go:Add", "index/index.go:Delete", "index/index.go:deleteNode"]}
{"id": "C53", "title": "Cryptor leaves buffers alone", "statement": "Cryptor.Encrypt and Cryptor.Decrypt change no memory that existed before the call; in particular the wrapped key and the ciphertext given to Decrypt can be shared by any number of concurrent Decrypts, each of which returns what it would return alone.", "quantifier": "every slice length, capacity and overlap, every schedule", "why_tests_cant": "aliasing depends on capacity and schedule", "anchors": ["crypto/cryptor.go:Encrypt", "crypto/cryptor.go:Decrypt", "crypto/aes.go"]}
{"id": "C54", "title": "In-place AEAD", "statement": "AES256GCM.Encrypt and Decrypt compute AES-256-GCM of what their buffers held when called, for every length and capacity of these buffers, and overwrite nothing but the plaintext and the 28 bytes behind it within its capacity (Encrypt), or the ciphertext buffer within its capacity (Decrypt). Encrypt: if key and associated data do not overlap these bytes.", "quantifier": "every slice length and capacity, every content", "why_tests_cant": "whether append works in place depends on the capacity", "anchors": ["crypto/aes.go:Encrypt", "crypto/aes.go:Decrypt"]}
{"id": "C55", "title": "Overlapping object calls take effect one after the other", "statement": "Any number of calls on a D1 instance, of all kinds and overlapping in any way, behave as if each took effect at one moment between being made and being answered, with the effects and replies of the sequential specification, provided that calls at odds do not overlap: two calls that change the same object or its access list, or one that updates or deletes an object and one that decrypts it. Random ids must not repeat, and nobody names an id before Encrypt has returned it.", "quantifier": "every number of calls, every schedule of their steps, every storage whose entries change in one step (Mem and Bolt), every identity provider that leaves objects alone", "why_tests_cant": "the schedules and the numbers of calls are unbounded", "anchors": ["d1.go:Encrypt", "d1.go:Update", "d1.go:Decrypt", "d1.go:Delete", "d1.go:GetAccessGroups", "d1.go:AddGroupsToAccess", "d1.go:RemoveGroupsFromAccess", "d1.go:AuthorizeIdentity"]}
{"id": "C56", "title": "All overlapping object calls are linearizable", "statement": "As C55, without the restriction on calls at odds: every overlapping use of one D1 instance behaves like some sequence of its calls.", "quantifier": "every number of calls, every schedule", "why_tests_cant": "the schedules and the numbers of calls are unbounded", "anchors": ["d1.go:Update", "d1.go:Decrypt", "d1.go:Delete", "d1.go:AddGroupsToAccess"]}
{"id": "C57", "title": "Identities stem from logins with passwords, whatever happens to storage", "statement": "While any number of Standalone calls run at once over storage that an adversary rewrites at will, a token resolves to an identity only if a LoginUser call for exactly that user id, given a password that NewUser or ChangeUserPassword had made for some account, made a token with this expiry. The identity's scopes are those given to some NewUser; its groups were made by NewGroup called by someone logged in, or are ids of users who logged in and named themselves; each group's scopes were given to some NewGroup. LoginUser and ChangeUserPassword succeed only with such a password, and every call taking a token only if it resolves to such an identity.", "quantifier": "every list of calls, every schedule of their steps, every interference with storage, clock and randomness", "why_tests_cant": "schedules and adversaries are unbounded", "anchors": ["id/standalone.go:GetIdentity", "id/standalone.go:LoginUser", "id/standalone.go:ChangeUserPassword", "id/standalone.go:NewGroup", "id/standalone.go:AddUserToGroups"]}
{"id": "C58", "title": "The whole library end to end", "statement": "With a Standalone as the identity provider of a D1 and a SecureIndex over the same untrusted storage, all in use at once: what Decrypt returns was written under that id by the Encrypt that made it or by an Update by someone with access, and it is returned only to someone whose token stems from a login with the password of an account, who has the scope, and who, or one of whose groups, was granted access by a chain of Encrypt and AddGroupsToAccess calls of people who themselves logged in. The same holds of all other object calls and of index calls.", "quantifier": "every list of calls of the three kinds, every schedule, every interference with storage, clock and randomness, all keys in use for one purpose only", "why_tests_cant": "the schedules, histories and adversaries are unbounded", "anchors": ["d1.go:New", "d1.go:Decrypt", "index/index.go:Search", "id/standalone.go:GetIdentity"]}
{"id": "C59", "title": "Only LoginUser makes login tokens", "statement": "A token that the identity provider accepts was made by LoginUser, for whatever 256-bit keys D1 and the identity provider are configured with; a token made by D1's CreateToken is never accepted.", "quantifier": "every configuration of keys, every user, every history", "why_tests_cant": "the histories and the contents of tokens are unbounded", "anchors": ["d1.go:CreateToken", "id/standalone.go:GetIdentity", "key/key.go:Keys", "id/standalone.go:StandaloneConfig"]}
{"id": "C60", "title": "Overlapping identity-provider calls that are not at odds act one after the other", "statement": "Standalone calls made from any number of goroutines act as if made one after the other, each once, with the effects and replies they have alone, in an order in which a call answered before another was made comes first - provided that no call changing a user's entry (password, groups, deletion, or NewGroup by that user) overlaps another such call or a change made on that user's behalf, that no LoginUser overlaps a password change or deletion of that user, that user ids are not guessed before they are returned, and that tokens are not forged.", "quantifier": "every number and kind of calls, every interleaving of their steps, every storage whose entries change in one step, every user and group in storage", "why_tests_cant": "interleavings and histories are unbounded", "anchors": ["id/standalone.go:NewUser", "id/standalone.go:LoginUser", "id/standalone.go:ChangeUserPassword", "id/standalone.go:AddUserToGroups", "id/standalone.go:RemoveUserFromGroups", "id/standalone.go:DeleteUser", "id/standalone.go:NewGroup", "id/standalone.go:GetIdentity"]}
{"id": "C61", "title": "Any overlapping identity-provider calls act one after the other", "statement": "C60 without the restriction on which calls overlap: a password change that succeeded is in force, a removal from a group that succeeded is in force, and a member who has been removed from a group can no longer let others in.", "quantifier": "every number and kind of calls, every interleaving of their steps", "why_tests_cant": "interleavings and histories are unbounded", "anchors": ["id/standalone.go:ChangeUserPassword", "id/standalone.go:NewGroup", "id/standalone.go:AddUserToGroups", "id/standalone.go:RemoveUserFromGroups"]}
{"id": "C62", "title": "Overlapping index calls that are not at odds act one after the other", "statement": "Add, Search and Delete made from any number of goroutines act as if made one after the other, each once, with the effect and reply it has alone, in an order in which a call answered before another was made comes first - provided that calls for the same keyword overlap only when both are Searches.", "quantifier": "every number and kind of index calls, every interleaving of their steps, every keyword and identifier, every storage whose entries change in one step", "why_tests_cant": "interleavings and histories are unbounded", "anchors": ["index/index.go:Add", "index/index.go:Search", "index/index.go:Delete", "io/mem.go", "io/bolt.go"]}
{"id": "C63", "title": "A Search that overlaps a Delete finds the identifiers that stay", "statement": "A Search that overlaps a Delete for the same keyword returns every identifier that was added before the Search was made and that nobody asks to delete.", "quantifier": "every interleaving of a Search and a Delete, every list of identifiers", "why_tests_cant": "interleavings are unbounded", "anchors": ["index/index.go:Search", "index/index.go:Delete", "index/index.go:deleteNode"]}
{"id": "C64", "title": "Changed associated data, ciphertext or tag is refused", "statement": "If AES256GCM.Decrypt accepts a ciphertext with some associated data, then it refuses it after any change of the tag, after any change of the encrypted data or of the associated data inside one 16-byte block (unless the key's GHASH subkey is zero), and any other change of data, associated data and tag with the same nonce is accepted under at most as many subkeys as the longer message has blocks, plus one, out of 2^128.", "quantifier": "all keys, nonces, associated data, ciphertexts and changes, of any length", "why_tests_cant": "a test tries a few changes of a few messages under a few keys; the claim is about every change and bounds the number of keys among 2^128", "anchors": ["crypto/aes.go:AES256GCM.Encrypt", "crypto/aes.go:AES256GCM.Decrypt"]}
{"id": "C65", "title": "The library as a whole behaves as a directory, an object map and an index", "statement": "D1, the Standalone identity provider and the searchable index, put together on one storage with the Standalone resolving the tokens of the other two, answer every sequence of calls as a directory of users and groups, a map of objects and an index side by side would, where a token is worth in an object or index call exactly what the directory says about it at that moment. The three do not disturb each other's stored data. If every token presented was handed out by the library before, this holds with no assumption about forged ciphertexts.", "quantifier": "all sequences of calls of the three kinds, with anything else happening to storage, clock and random source in between, over Mem, Bolt and any storage that is a map", "why_tests_cant": "unbounded mixed call histories over three components sharing one storage", "anchors": ["d1.go:D1", "id/standalone.go:Standalone", "index/index.go:SecureIndex", "id/standalone.go:GetIdentity", "utility.go:verifyAccess"]}
{"id": "C66", "title": "Revocation and deletion take effect at once in the assembled library", "statement": "Once RemoveUserFromGroups has taken a user out of the groups on an object's access list, every object call by that user about the object is refused, although their token is still valid; once DeleteUser has succeeded, every call with one of their tokens, to D1, the index or the identity provider, is refused; and what GetIdentity and GetAccessGroups last said decides whether a call is let through.", "quantifier": "all histories of complete calls and all moments in them, all users, groups, objects and tokens", "why_tests_cant": "the claim is about every continuation of every history", "anchors": ["id/standalone.go:RemoveUserFromGroups", "id/standalone.go:DeleteUser", "id/standalone.go:GetIdentity", "d1.go:Decrypt", "utility.go:verifyAccess", "index/index.go:Search"]}
{"id": "C67", "title": "Every key, nonce, id and password is its own draw from the random source", "statement": "Every ciphertext the library makes uses a data key and a nonce, and every id and password it hands out uses bytes, that were drawn from the random source for that one purpose; no draw is used twice, whatever calls run at the same time. So if the source repeats no 32 bytes, no two ciphertexts are made with the same data key and no two passwords handed out are equal, and if no two draws make the same id, no two replies carry the same new id.", "quantifier": "all sets of calls of D1, the index and the identity provider, all interleavings of their steps with each other and with an adversary, all random sources", "why_tests_cant": "key and nonce reuse shows only in particular interleavings and would not make any call fail", "anchors": ["crypto/aes.go:Encrypt", "crypto/random.go:GetBytes", "crypto/cryptor.go:Encrypt", "d1.go:Encrypt", "d1.go:Update", "id/standalone.go:NewUser", "id/standalone.go:ChangeUserPassword", "crypto/password.go:GeneratePassword"]}
{"id": "C68", "title": "Storage sees nothing but ciphertexts, ids and tags", "statement": "In every request the library makes of its storage, the data written are the ciphertext of an encryption made in this run under the key configured for that kind of data (for an index entry, derived from the keyword), framed with nothing but the id, the wrapped data key, and for an object the associated data its caller gave. An object's data key is written only inside an encrypted access list. Index entries are read, written and deleted only under KMAC tags of the keywords in use, and objects and access lists only under ids that callers named or Encrypt drew. Passwords, keywords, identifiers, groups and plaintexts reach storage in no other form.", "quantifier": "all sets of calls of D1, the index and the identity provider, all interleavings with each other and with an adversary rewriting storage, all storage providers", "why_tests_cant": "a leak would show only in the bytes of some request of some call in some interleaving, and make no call fail", "anchors": ["utility.go:putSealedObject", "utility.go:putSealedAccess", "id/standalone.go:putUser", "id/standalone.go:putGroup", "index/index.go:putSealedNode", "index/index.go:getTaggerAndCryptor", "data/object.go:Seal"]}
{"id": "C69", "title": "Logging changes nothing but the log", "statement": "Whatever logger a caller's context holds, none included, every call gives the answers and leaves the storage it would without logging, in whatever interleaving with other calls, and is never held up by it. The fields the library adds for its own lines do not show in the caller's logger: its context is, at every moment, what it was.", "quantifier": "all sets of calls of D1, the index and the identity provider, all interleavings, all loggers and all the ways they share memory (for the last part: loggers in the same memory are the same logger)", "why_tests_cant": "the log context is bytes in memory shared by copies of a logger; whether a write shows elsewhere depends on lengths, capacities and interleavings", "anchors": ["log/log.go:CopyCtxLogger", "log/log.go:WithMethod", "log/log.go:WithUserID", "log/log.go:WithObjectID", "utility.go:verifyAccess", "index/index.go:verifyAccess"]}
{"id": "C70", "title": "A log line is about the call that wrote it", "statement": "Every line the library logs carries, beside the fields of its caller's own logger, only the method that was called (and that of the identity lookup within it), the id of the object that call is about and the id of its caller; and beside its message only the groups named in the call, the error of the identity lookup, the scope required, the expiry of the token or a number of groups. In particular no plaintext, key, token, password, keyword or identifier. Lines are written only at debug level.", "quantifier": "all sets of calls, all interleavings, all loggers", "why_tests_cant": "a field of another call shows only in particular interleavings of calls that share a logger", "anchors": ["log/log.go:CopyCtxLogger", "log/log.go:WithObjectID", "d1.go:Decrypt", "d1.go:Encrypt", "utility.go:verifyAccess", "id/standalone.go:GetIdentity", "index/index.go:Add"]}
{"id": "C71", "title": "A KMAC object depends only on what was written since it was made or reset", "statement": "An object returned by NewKMAC128 or NewKMAC256 may be used with Write, Sum, Reset, Size and BlockSize in any order, the data cut into pieces of any lengths: no call panics, Write takes everything, Sum(b) returns b followed by the KMAC of the bytes written since the object was made or last reset and changes nothing, Size and BlockSize are those it was made with. A short key or a tag length below 8 panics at construction. KMACKDF and Tag, call by call, give KMAC256 of the joined context and of the empty message.", "quantifier": "all keys, tag sizes, customization strings, all sequences of calls, all cuts of the data", "why_tests_cant": "whether a block boundary, a Sum in between or a Reset spoils the state shows only for particular lengths and orders of calls", "anchors": ["crypto/kmac.go:NewKMAC128", "crypto/kmac.go:NewKMAC256", "crypto/kmac.go:Sum", "crypto/kmac.go:Reset", "crypto/kdf.go:KMACKDF", "crypto/tagger.go:Tag"]}
{"id": "C72", "title": "Objects survive calls that die and storage that fails", "statement": "In any sequence of calls in which any call may die at any point and any storage operation may fail, the replies are those of a shelf that keeps, per id, an object and an access list: a call that dies, or is told of a storage failure, has no effect, part of its effect or all of it, and none at all if its caller was not entitled to it. In particular: Decrypt returns only objects somebody asked to have stored under that id; what an Encrypt or Update that succeeded has stored is what entitled callers read, until somebody asks for the object to be updated or deleted; a caller whose ids have all been removed from the access list stays out until somebody asks for one of them to be added.", "quantifier": "all sequences of object calls by any callers, all points at which calls die, all failures of storage, all interleaved other activity", "why_tests_cant": "the number of places to die times the number of histories is unbounded, and most of them never show up when the process is not killed at exactly that point", "anchors": ["d1.go:Encrypt", "d1.go:Update", "d1.go:Decrypt", "d1.go:Delete", "d1.go:AddGroupsToAccess", "d1.go:RemoveGroupsFromAccess", "utility.go"]}
{"id": "C73", "title": "The whole library survives calls that die and storage that fails", "statement": "In any sequence of identity, object and index calls in which any call may die at any point and any storage operation may fail, the replies are those of a directory of users and groups, a shelf of objects and an index side by side, where a token in an object or index call is worth what the directory says at that moment, or nothing if storage fails while it is looked up. A call that dies or reports an error has no effect, part of its effect or all of it, and none if its caller may not make it. In particular a user who was taken out of every group on an object's access list, or was deleted, has no further effect on anything and is refused, whatever else died or failed before or since, until somebody asks for the user to be put back.", "quantifier": "all sequences of calls of the three kinds by any callers, all points at which calls die, all failures of storage, all interleaved other activity", "why_tests_cant": "three components share one storage, and every call of each can be cut at any of its steps in any history of the others; tests see a handful of these", "anchors": ["d1.go", "utility.go", "index/index.go", "id/standalone.go", "id/standalone.go:GetIdentity", "id/standalone.go:DeleteUser", "id/standalone.go:RemoveUserFromGroups"]}
{"id": "C74", "title": "Calls of all kinds from many goroutines act one after the other", "statement": "Identity, object and index calls made at the same time from any number of goroutines, of a D1 and a SecureIndex that use a Standalone as identity provider over one storage, give replies that one order explains: each identity call acts once, at one moment; each object or index call has its token looked up once, at one moment, and later acts once, at one moment, as the identity that was found; and whatever was answered before a call was made comes before it in that order. Calls of different kinds may overlap freely; calls of one kind may overlap unless they are at odds (C55, C60, C62 say which are).", "quantifier": "all sets of calls of the three kinds, all interleavings of their steps, all storage that changes entries in one step, all interleaved other activity", "why_tests_cant": "the interleavings of even a few calls are too many to run, and a race detector sees no race because each storage operation is locked on its own", "anchors": ["d1.go", "utility.go", "index/index.go", "id/standalone.go", "io/mem.go", "io/bolt.go"]}
{"id": "C75", "title": "Revocation that has been answered is in force, whatever overlaps", "statement": "With identity, object and index calls overlapping as in C74: once DeleteUser for a user has been answered, and every NewUser was answered before that DeleteUser was made (or returned another id), every call made afterwards with a token of that user is turned away. Once a user has been seen to be neither on an object's access list nor in any group on it (taken out by a RemoveUserFromGroups that was answered, or never put in), and nothing changes that list, every call made afterwards by that user about the object is refused. GetIdentity called after the user was taken out of a group does not report the group.", "quantifier": "all sets of calls of the three kinds, all interleavings of their steps, all moments at which the later call is made", "why_tests_cant": "a test can revoke and then retry, but not with every interleaving of other calls that are going on before, during and after the revocation", "anchors": ["id/standalone.go:DeleteUser", "id/standalone.go:RemoveUserFromGroups", "id/standalone.go:GetIdentity", "d1.go", "utility.go:verifyAccess", "utility.go:authorizeAccess", "index/index.go:verifyAccess"]}
{"id": "C76", "title": "Each call acts at one moment, so revocation also stops calls that are going on", "statement": "Identity, object and index calls made at the same time give replies that can be explained by letting each call act at one single moment between being made and being answered, who its token stands for included. In particular a user who has been taken out of a group or deleted is not told, by a call that was going on, of anything that happened after that was answered.", "quantifier": "all sets of calls of the three kinds and all interleavings of their steps", "why_tests_cant": "the failing interleaving needs a call to be suspended between the token lookup and the reading of the access list while several other calls run to their end", "anchors": ["utility.go:verifyAccess", "utility.go:authorizeAccess", "d1.go:GetAccessGroups", "id/standalone.go:GetIdentity", "id/standalone.go:RemoveUserFromGroups"]}
{"id": "C77", "title": "Decrypt and Search return what the answered calls have left, whatever overlaps", "statement": "With identity, object and index calls overlapping as in C74: if an object has been stored by an Encrypt or Update that was answered, and every other Update or Delete of that object was answered before that call was made or failed, a Decrypt made afterwards yields that very plaintext and associated data, or refuses the caller. If an object has been deleted and no Encrypt has returned its id since, a Decrypt made afterwards yields nothing. A Search made at any moment lists exactly the identifiers that the Adds and Deletes of its keyword answered by then have left, in the order of the Adds, or refuses the caller, unless a Delete of that keyword failed for lack of randomness.", "quantifier": "all sets of calls of the three kinds, all interleavings of their steps, all moments at which the Decrypt or Search is made", "why_tests_cant": "a test can read back what it wrote, but not with every interleaving of all the other calls that are going on before, during and after", "anchors": ["d1.go:Encrypt", "d1.go:Update", "d1.go:Decrypt", "d1.go:Delete", "index/index.go:Add", "index/index.go:Search", "index/index.go:Delete", "utility.go"]}
{"id": "C78", "title": "Access lists follow the answered calls, whatever overlaps", "statement": "With identity, object and index calls overlapping as in C74: if a group was put on an object's access list by an answered Encrypt or AddGroupsToAccess, or shown there by GetAccessGroups, and every RemoveGroupsFromAccess or Delete that may take it off was answered before that call was made or failed, a GetAccessGroups made afterwards shows the group, or refuses the caller. If a group was taken off by an answered RemoveGroupsFromAccess, or not shown by GetAccessGroups, and no call since may have put it there, a GetAccessGroups made afterwards does not show it. A logged-in user who is off the list in that sense, as is every group they may be in, is refused by every call on that object made afterwards.", "quantifier": "all sets of calls of the three kinds, all interleavings of their steps, all objects, users and groups, all moments at which the later call is made", "why_tests_cant": "a test shows a list after a few changes made one after the other; it cannot show that no interleaving with other calls loses an entry or brings one back", "anchors": ["d1.go:Encrypt", "d1.go:GetAccessGroups", "d1.go:AddGroupsToAccess", "d1.go:RemoveGroupsFromAccess", "d1.go:Delete", "utility.go", "data/access.go"]}
{"id": "C79", "title": "Passwords, memberships and shared objects follow the answered calls, whatever overlaps", "statement": "With identity, object and index calls overlapping as in C74: the password that NewUser, ChangeUserPassword or a successful LoginUser has shown to be a user's, if all other calls that may change it or delete the user were answered before that call was made or failed, logs the user in afterwards (random source and clock permitting), and any password with another hash neither logs in nor changes the password. A group that a user was put in and has not been taken out of since is in the identity GetIdentity returns afterwards. A user who has the scopes, and is in a group that has them and is on the access list of an object, is not refused by calls on that object made afterwards, and Decrypt gives them the very object that was stored last, unless their token has expired or one of their groups does not exist.", "quantifier": "all sets of calls of the three kinds, all interleavings of their steps, all users, passwords, groups and objects, all moments at which the later call is made", "why_tests_cant": "a test logs in or decrypts after a few calls made one after the other; it cannot show that no interleaving with other calls loses a password change, a membership or an access", "anchors": ["id/standalone.go:NewUser", "id/standalone.go:LoginUser", "id/standalone.go:ChangeUserPassword", "id/standalone.go:AddUserToGroups", "id/standalone.go:GetIdentity", "d1.go:Decrypt", "utility.go"]}
{"id": "C80", "title": "Whatever a call returns was put there by a call, whatever overlaps", "statement": "With identity, object and index calls overlapping as in C74: an object that Decrypt returns was stored as it is under that id by an Encrypt or Update; a group or user on a list that GetAccessGroups returns was put there by AddGroupsToAccess or Encrypt or is the user who encrypted the object; an identifier that Search lists was added for that keyword, even if Deletes have failed half way; an identity that GetIdentity returns is that of the user whose login gave the token, with the scopes given to NewUser, and its groups are groups the user was put in or has made, with the scopes given to NewGroup; and a call whose token is not turned away has a token from a LoginUser with a password that NewUser or ChangeUserPassword gave to that user (or one with the same hash), and no login has given that token to any other user. In each case the call it comes from was made before the answer, and if it has been answered, then in the way that says so.", "quantifier": "all sets of calls of the three kinds, all interleavings of their steps, all tokens, users, groups, objects and keywords, all answers", "why_tests_cant": "a test compares what it reads with what it wrote; it cannot show that no interleaving of calls makes the library return an object, an access list entry, a membership, a scope or an identifier that nobody has put there", "anchors": ["d1.go:Decrypt", "d1.go:GetAccessGroups", "index/index.go:Search", "id/standalone.go:GetIdentity", "id/standalone.go:LoginUser", "utility.go"]}
{"id": "C81", "title": "Object and identity calls are over after a bounded number of steps, whatever others do", "statement": "An object call looks up its token at most once and calls the storage at most twice (Encrypt, Decrypt, AddGroupsToAccess, RemoveGroupsFromAccess), three times (Update, Delete), once (GetAccessGroups, AuthorizeIdentity) or not at all (CreateToken, GetTokenContents); besides it draws random bytes, encrypts, decrypts and looks at the clock a fixed number of times, and then it has answered. A call of the identity provider is bounded in the same way; looking up a token takes one call to the storage for the user and one for each of the user's groups. No call tries again or waits for another one, whatever is done to the storage between any two of its steps.", "quantifier": "all object and identity calls, all storages whose own calls take a bounded number of steps, all identity providers, all things others may do to the storage, the random source and the clock between the steps of the call", "why_tests_cant": "a test shows that a call ends in the schedules it happens to run in; a retry loop that spins only when others write at the wrong moments passes it", "anchors": ["d1.go", "utility.go", "id/standalone.go", "io/mem.go", "io/bolt.go"]}
{"id": "C82", "title": "Damage to a stored object or to its access list is noticed", "statement": "Take an object that somebody can decrypt. If the tag of its stored ciphertext is replaced by any other, or its encrypted data is changed in any way inside one 16-byte block (and the GHASH subkey of the object's key is not zero), Decrypt fails for everybody. If the same happens to its stored access list, every call about the object fails for everybody: Update, Decrypt, Delete, GetAccessGroups, AddGroupsToAccess, RemoveGroupsFromAccess and AuthorizeIdentity. This is so without any assumption that ciphertexts cannot be forged.", "quantifier": "all keys, objects, access lists, tokens, storages (also failing ones), identity providers that do not write, and all such changes of tag or data", "why_tests_cant": "a test flips a few bits of a few records; the claim is about every key, every object and every such change", "anchors": ["d1.go", "utility.go", "data/object.go:SealedObject.Unseal", "data/access.go:SealedAccess.Unseal", "crypto/cryptor.go:Decrypt", "crypto/aes.go:Decrypt"]}
{"id": "C83", "title": "An altered token is refused", "statement": "Take a token that was accepted once. If its tag is replaced by any other, or its encrypted contents or the text of its expiry are changed in any way inside one 16-byte block (and the GHASH subkey of the token's key is not zero), it is never accepted: GetTokenContents fails for it, and so does GetIdentity if it is a login token. In particular nobody can make a login last longer by changing the expiry that stands in its token. This is so without any assumption that ciphertexts cannot be forged.", "quantifier": "all keys, tokens, times, states of storage and of the identity provider, and all such changes of tag, contents or expiry", "why_tests_cant": "a test alters a few tokens; the claim is about every key, every token and every such change", "anchors": ["d1.go:GetTokenContents", "data/token.go:SealedToken.Unseal", "id/standalone.go:GetIdentity", "crypto/cryptor.go:Decrypt", "crypto/aes.go:Decrypt"]}
